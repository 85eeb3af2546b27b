(** * Keys, neg_gsw, expansion, RGSW key switching *)
From Coq Require Import Setoid Morphisms Ring.
From Verif Require Import MBase MUtils MCodec MPoly MRlwe SpecLwe PolyRing PfPoly PfDecomp PfNear PfRlwe PfRlwe2 PfCodec.
Local Open Scope Z_scope.

Section Rl.
Variable n : nat.
Hypothesis Hn : (0 < n)%nat.
Add Ring Pring : (P_ring n Hn) (setoid (peq_equiv n) (P_ext n)).
Notation nil_ct := {| mask := []; body := [] |}.

(** ** Key switching keys *)
Lemma fill_ksk_ok base level before after t E :
  wfp n before -> decomp_ok base level -> tape_ok n E t ->
  forall k, ksk_switches n (tof before) after
    {| k_base := base; k_level := level; k_n := n; k_subs := k;
       k_ksks := k_ksks (fill_with_keyswitch_key n base level before after t) |} E.
Proof.
  intros Hb Hd Ht k. cbn [fill_with_keyswitch_key k_ksks].
  split; [reflexivity|]. split; [exact Hd|]. cbn [k_base k_level k_ksks].
  split; [rewrite map_length, seq_length; reflexivity|]. split.
  - apply Forall_forall. intros c Hc. apply in_map_iff in Hc as (i & <- & _).
    eapply wfc_encrypt; [apply wfp_mul_const, Hb|apply Ht].
  - intros i Hi. rewrite nth_map_seq by exact Hi.
    eapply near_eq_r; [symmetry; apply tof_mul_const; [exact Hn|apply Hb]|].
    apply near_encrypt; [exact Hn|apply wfp_mul_const, Hb|apply Ht].
Qed.
Lemma fill_with_keyswitch_key_ok base level before after t E :
  wfp n before -> decomp_ok base level -> tape_ok n E t ->
  ksk_switches n (tof before) after (fill_with_keyswitch_key n base level before after t) E.
Proof. intros. apply (fill_ksk_ok base level before after t E) with (k := 0%nat); assumption. Qed.

Lemma ksk_switches_peq f g after key E : peq n f g -> ksk_switches n f after key E -> ksk_switches n g after key E.
Proof.
  intros H (H1 & H2 & H3 & H4 & H5). split; [exact H1|]. split; [exact H2|]. split; [exact H3|]. split; [exact H4|].
  intros i Hi. eapply near_eq_r; [|apply H5; exact Hi]. rewrite H. reflexivity.
Qed.

Variable lg : nat.
Hypothesis Hlg : n = (2 ^ lg)%nat.

Lemma fill_subs_ok base level s k t E :
  wfp n s -> decomp_ok base level -> tape_ok n E t -> Nat.odd k = true ->
  exists key, fill_with_subs_keyswitch_key n base level s k t = Ok key /\
    k_subs key = k /\ k_base key = base /\ k_level key = level /\
    ksk_switches n (psubst n k (tof s)) s key E.
Proof.
  intros Hs Hd Ht Hk. unfold fill_with_subs_keyswitch_key.
  destruct (eval_x_k_ok lg n k s Hlg Hs Hk) as (r & -> & Wr & Pr). cbn [bind].
  eexists; split; [reflexivity|]. cbn [k_subs k_base k_level].
  split; [reflexivity|]. split; [reflexivity|]. split; [reflexivity|].
  eapply ksk_switches_peq; [exact Pr|]. apply fill_ksk_ok; assumption.
Qed.

Lemma tape_split E t i : tape_ok n E t -> tape_ok n E (split t i).
Proof. clear. intros H j. apply H. Qed.

Lemma mapM_In {A B} (f : A -> res B) l r y : mapM f l = Ok r -> In y r -> exists x, In x l /\ f x = Ok y.
Proof.
  clear. revert r; induction l as [|a l IH]; cbn; intros r H Hy.
  - injection H as <-. destruct Hy.
  - apply bind_Ok in H as (z & Hz & H). apply bind_Ok in H as (zs & Hzs & H). injection H as <-.
    destruct Hy as [-> | Hy]; [eauto|]. destruct (IH _ Hzs Hy) as (x & Hx & E). eauto.
Qed.
Lemma kget_In m k : (exists v, In (k, v) m) -> exists v, kget m k = Some v /\ In (k, v) m.
Proof.
  clear. induction m as [|[k' v'] m IH]; intros (v & Hv); [destruct Hv|]. cbn.
  destruct (Nat.eqb_spec k' k) as [->|N]; [eauto|]. destruct Hv as [E|Hv]; [congruence|].
  destruct IH as (w & Hw & Iw); eauto.
Qed.

Lemma gen_all_subs_ksk_ok cx s t E :
  c_n cx = n -> wfp n s -> decomp_ok (c_ks_base cx) (c_ks_level cx) -> tape_ok n E t ->
  exists m, gen_all_subs_ksk cx s t = Ok m /\ subs_map_ok n s m (c_ks_base cx) (c_ks_level cx) E.
Proof.
  intros En Hs Hd Ht. unfold gen_all_subs_ksk. rewrite En. cbv zeta.
  set (G := fun i => ksk <- fill_with_subs_keyswitch_key n (c_ks_base cx) (c_ks_level cx) s (trace_k n i) (split t i) ;; Ok (trace_k n i, ksk)).
  pose proof (log2_n n Hn lg Hlg) as HL.
  destruct (mapM_Forall G (fun _ => True) (seq 1 (Nat.log2 n))) as (m & Em & _).
  { intros i Hi. apply in_seq in Hi. unfold G.
    destruct (fill_subs_ok (c_ks_base cx) (c_ks_level cx) s (trace_k n i) (split t i) E) as (key & -> & _); auto using tape_split.
    { apply (trace_k_odd n Hn lg Hlg). lia. }
    cbn. eauto. }
  exists m. split; [exact Em|]. intros i Hi.
  destruct (kget_In m (trace_k n i)) as (key & Kg & Kin).
  { assert (nth_error (seq 1 (Nat.log2 n)) (i - 1) = Some i) as Ne.
    { rewrite (nth_error_nth' _ 0%nat) by (rewrite seq_length; lia). rewrite seq_nth by lia. f_equal. lia. }
    destruct (mapM_nth _ _ _ _ _ Em Ne) as (y & Ey & Iy). unfold G in Ey. apply bind_Ok in Ey as (key & _ & Ey).
    injection Ey as <-. exists key. eapply nth_error_In; exact Iy. }
  exists key. split; [exact Kg|].
  destruct (mapM_In _ _ _ _ Em Kin) as (j & Hj & Ej). apply in_seq in Hj. unfold G in Ej.
  destruct (fill_subs_ok (c_ks_base cx) (c_ks_level cx) s (trace_k n j) (split t j) E) as (key' & E' & H'); auto using tape_split.
  { apply (trace_k_odd n Hn lg Hlg). lia. }
  rewrite E' in Ej. cbn [bind] in Ej. injection Ej as Ek <-. rewrite Ek in H'. exact H'.
Qed.

(** ** encrypt_rgsw and neg_gsw: rows in the gadget of the context's base *)
Notation rows_near := (rgsw_rows n).

Lemma mapiM_ok {A B} (f : nat -> A -> res B) (h : nat -> A -> B) l i :
  (forall j x, nth_error l j = Some x -> f (i + j)%nat x = Ok (h (i + j)%nat x)) ->
  exists r, mapiM f i l = Ok r /\ length r = length l /\
    forall j x, nth_error l j = Some x -> nth_error r j = Some (h (i + j)%nat x).
Proof.
  clear. revert i; induction l as [|a l IH]; intros i H; cbn.
  - exists []. repeat split. intros [|j]; discriminate.
  - pose proof (H 0%nat a eq_refl) as H0. rewrite Nat.add_0_r in H0. rewrite H0. cbn.
    destruct (IH (S i)) as (r & Er & Lr & Nr).
    { intros j x Hj. specialize (H (S j) x Hj). rewrite Nat.add_succ_r in H. exact H. }
    rewrite Er. cbn. eexists; split; [reflexivity|]. split; [cbn; lia|].
    intros [|j] x Hj; cbn in *; [injection Hj as <-; rewrite Nat.add_0_r; reflexivity|].
    rewrite (Nr j x Hj). f_equal. f_equal. lia.
Qed.

Lemma gadget_word base level : (1 <= base * level <= 64)%nat -> is_word (gadget base level).
Proof.
  clear. intros H. unfold gadget. split; [apply Z.pow_nonneg; lia|]. unfold q. apply Z.pow_lt_mono_r; lia.
Qed.

Lemma encrypt_rgsw_ok cx s base level encoded t E :
  c_n cx = n -> wfp n s -> wfp n encoded -> decomp_ok base level -> tape_ok n E t ->
  (1 <= c_base cx)%nat -> (c_base cx * level <= 64)%nat ->
  exists g, encrypt_rgsw cx s base level encoded t = Ok g /\ g_base g = base /\ g_level g = level /\ wfg n g /\
    rows_near s g (c_base cx) (tof encoded) E.
Proof. clear Hlg lg.
  intros En Hs He Hd Ht Hc1 Hc. unfold encrypt_rgsw. rewrite En. cbv zeta.
  set (out := encrypt_constant_rgsw n s base level 0 t).
  destruct (encrypt_constant_rgsw_ok n Hn s base level 0 t E Hs Hd Ht) as [Wout Rout]. fold out in Wout, Rout.
  change (g_level out) with level in Rout. change (g_base out) with base in Rout.
  set (h := fun i r => if Nat.even i then update_mask_with_add r (mul_const encoded (gadget (c_base cx) (i / 2 + 1)))
                       else update_body_with_add r (mul_const encoded (gadget (c_base cx) (i / 2 + 1)))).
  pose proof (proj1 (proj2 Wout)) as Lout. change (g_level out) with level in Lout.
  destruct (mapiM_ok (encrypt_rgsw_row cx encoded) h (g_rows out) 0) as (rows & Er & Lr & Nr).
  { intros j x Hj. assert (j < 2 * level)%nat as Hj' by (rewrite <- Lout; apply nth_error_Some; congruence).
    cbn [Nat.add]. unfold encrypt_rgsw_row.
    assert (j / 2 < level)%nat as Hj2 by (apply Nat.div_lt_upper_bound; lia).
    rewrite usub_ok by nia. cbn [bind]. rewrite ushl_ok by nia. cbn [bind].
    rewrite Z.mul_1_l. change (2 ^ (64 - Z.of_nat (c_base cx * (j / 2 + 1)))) with (gadget (c_base cx) (j / 2 + 1)).
    rewrite wrap_id by (apply gadget_word; nia). unfold h. destruct (Nat.even j); reflexivity. }
  rewrite Er. cbn [bind]. eexists; split; [reflexivity|]. cbn [g_base g_level]. split; [reflexivity|]. split; [reflexivity|].
  assert (forall i, (i < 2 * level)%nat -> nth i rows nil_ct = h i (nth i (g_rows out) nil_ct)) as Nth.
  { intros i Hi. apply nth_error_nth with (d := nil_ct). rewrite (Nr i (nth i (g_rows out) nil_ct)); [reflexivity|].
    apply nth_error_nth'. lia. }
  assert (forall i, (i < 2 * level)%nat -> wfc n (nth i (g_rows out) nil_ct)) as Wn.
  { intros i Hi. apply (rows_wfc n out i Wout Hi). }
  split.
  - split; [exact Hd|]. cbn [g_rows g_level]. split; [lia|]. apply Forall_forall. intros c Hc'.
    apply In_nth with (d := nil_ct) in Hc' as (i & Hi & <-). rewrite Nth by lia. specialize (Wn i ltac:(lia)).
    unfold h. destruct (Nat.even i); split; cbn; try apply Wn; apply wfp_add; auto using wfc_mask, wfc_body;
      apply wfp_mul_const, He.
  - intros i Hi. cbn [g_level] in Hi. unfold row0, row1. cbn [g_rows].
    rewrite !Nth by lia. destruct (Rout i Hi) as [R0 R1]. unfold row0, row1 in R0, R1.
    pose proof (Wn (2 * i)%nat ltac:(lia)) as W0. pose proof (Wn (2 * i + 1)%nat ltac:(lia)) as W1.
    set (r0 := nth (2 * i) (g_rows out) nil_ct) in *. set (r1 := nth (2 * i + 1) (g_rows out) nil_ct) in *.
    unfold h. rewrite even_double, even_double1, div_double, div_double1.
    assert (wfp n (mul_const encoded (gadget (c_base cx) (i + 1)))) as Wmc by (apply wfp_mul_const, He).
    assert (peq n (pcst 0) pzero) as Z0 by (intros [|k] _; reflexivity).
    split.
    + apply (near_eq_l n (psub (phase n s r0) (pmul n (pmul n (pcst (gadget (c_base cx) (i + 1))) (tof encoded)) (tof s)))).
      { unfold phase. cbn [update_mask_with_add mask body]. rewrite (tof_add n) by (auto using wfc_mask, wfp_len).
        rewrite (tof_mul_const n _ _ Hn) by apply He. ring. }
      apply (near_eq_r n (psub (popp (pmul n (pcst (gadget base (i + 1))) (pmul n (pcst 0) (tof s)))) (pmul n (pmul n (pcst (gadget (c_base cx) (i + 1))) (tof encoded)) (tof s)))).
      { rewrite Z0. ring. }
      rewrite <- (Z.add_0_r E). apply near_sub; [exact Hn|exact R0|apply near_refl; reflexivity].
    + apply (near_eq_l n (padd (phase n s r1) (pmul n (pcst (gadget (c_base cx) (i + 1))) (tof encoded)))).
      { unfold phase. cbn [update_body_with_add mask body]. rewrite (tof_add n) by (auto using wfc_body, wfp_len).
        rewrite (tof_mul_const n _ _ Hn) by apply He. ring. }
      apply (near_eq_r n (padd (pmul n (pcst (gadget base (i + 1))) (pcst 0)) (pmul n (pcst (gadget (c_base cx) (i + 1))) (tof encoded)))).
      { rewrite Z0. ring. }
      rewrite <- (Z.add_0_r E). apply near_add; [exact Hn|exact R1|apply near_refl; reflexivity].
Qed.

Lemma rows_near_peq s g gb m m' E : peq n m m' -> rows_near s g gb m E -> rows_near s g gb m' E.
Proof. clear Hlg lg.
  intros H R i Hi. destruct (R i Hi) as [A B]. split; (eapply near_eq_r; [|eassumption]); rewrite H; reflexivity.
Qed.

Lemma neg_gsw_ok cx s t E :
  c_n cx = n -> binary_key n s -> decomp_ok (c_negs_base cx) (c_negs_level cx) -> tape_ok n E t ->
  (1 <= c_base cx)%nat -> (c_base cx * c_negs_level cx <= 64)%nat ->
  exists g, neg_gsw cx s t = Ok g /\ g_base g = c_negs_base cx /\ g_level g = c_negs_level cx /\ wfg n g /\
    rows_near s g (c_base cx) (popp (tof s)) E.
Proof. clear Hlg lg.
  intros En Hs Hd Ht H1 H2. unfold neg_gsw.
  rewrite (mapM_ok _ (fun y => y * MAXW)).
  2:{ intros x Hx. apply umul_ok. destruct Hs as [_ F]. rewrite Forall_forall in F.
      destruct (F x Hx) as [-> | ->]; reflexivity. }
  cbn [bind]. assert (wfp n (map (fun y => y * MAXW) s)) as We.
  { destruct Hs as [L F]. split; [rewrite map_length; exact L|]. apply Forall_forall. intros x Hx.
    apply in_map_iff in Hx as (y & <- & Hy). rewrite Forall_forall in F. destruct (F y Hy) as [-> | ->]; split; vm_compute; congruence. }
  destruct (encrypt_rgsw_ok cx s (c_negs_base cx) (c_negs_level cx) _ t E En (binary_key_wf n s Hs) We Hd Ht H1 H2)
    as (g & Eg & Gb & Gl & Wg & Rg).
  exists g. split; [exact Eg|]. split; [exact Gb|]. split; [exact Gl|]. split; [exact Wg|].
  eapply rows_near_peq; [|exact Rg]. intros k Hk. unfold tof, popp.
  rewrite (nth_map_in _ _ _ 0) by (destruct Hs; lia). apply eqm_alt. exists (nth k s 0). unfold MAXW. ring.
Qed.
Lemma neg_gsw_encrypts cx s t E :
  c_n cx = n -> binary_key n s -> c_negs_base cx = c_base cx -> decomp_ok (c_base cx) (c_negs_level cx) -> tape_ok n E t ->
  exists g, neg_gsw cx s t = Ok g /\ g_base g = c_base cx /\ g_level g = c_negs_level cx /\
    rgsw_encrypts n s g (popp (tof s)) E.
Proof. clear Hlg lg.
  intros En Hs Eb Hd Ht. destruct Hd as (D1 & D2 & D3).
  destruct (neg_gsw_ok cx s t E) as (g & Eg & Gb & Gl & Wg & Rg); auto; try lia.
  { rewrite Eb. repeat split; assumption. }
  exists g. split; [exact Eg|]. rewrite <- Eb. split; [exact Gb|]. split; [exact Gl|]. split; [exact Wg|].
  rewrite Gb, Eb. exact Rg.
Qed.

(** ** Rows from decomposed ciphertexts *)
Lemma l1_opp f S : l1 n f S -> l1 n (popp f) S.
Proof. clear. unfold l1, popp. intros H. erewrite sumf_ext; [exact H|]. intros i _. apply nrm_opp. Qed.

Definition Dgb (b : nat) : Z := 2 ^ (Z.of_nat b - 1).
Lemma ep_bound_nonneg b l S M E eps : 0 <= S -> 0 <= M -> 0 <= E -> 0 <= eps -> (1 <= b)%nat -> (b * l < 64)%nat ->
  0 <= ep_bound n b l S M E eps.
Proof. clear Hlg lg.
  intros. unfold ep_bound. assert (0 < 2 ^ (Z.of_nat b - 1)) by (apply Z.pow_pos_nonneg; lia).
  assert (0 < 2 ^ (63 - Z.of_nat (b * l))) by (apply Z.pow_pos_nonneg; lia).
  assert (0 <= Z.of_nat n * 2 ^ (Z.of_nat b - 1) * E) by nia.
  assert (0 <= (1 + S) * 2 ^ (63 - Z.of_nat (b * l))) by nia. nia.
Qed.

Lemma index_ok {A} (l : list A) i d : (i < length l)%nat -> index l i = Ok (nth i l d).
Proof. clear. intros H. unfold index. rewrite (nth_error_nth' _ d H). reflexivity. Qed.

Lemma rows_to_rgsw fft eps cx s cs neg_s m N En S (rows : list rlwe) :
  c_n cx = n -> decomp_ok (c_base cx) (c_level cx) ->
  rgsw_encrypts n s neg_s (popp (tof s)) En -> fft_ok n fft (Dgb (g_base neg_s)) (2 * g_level neg_s) eps ->
  l1 n (tof s) S ->
  (forall i, (i < c_level cx)%nat -> wfc n (nth i cs nil_ct) /\
     near n (phase n s (nth i cs nil_ct)) (pmul n (pcst (gadget (c_base cx) (i + 1))) m) N) ->
  rows = map (fun i => if Nat.even i then external_product fft neg_s (rlwe_allocate n) (nth (i / 2) cs nil_ct) else nth (i / 2) cs nil_ct)
             (seq 0 (2 * c_level cx)) ->
  rgsw_encrypts n s {| g_base := c_base cx; g_level := c_level cx; g_rows := rows |} m
    ((1 + S) * N + ep_bound n (g_base neg_s) (g_level neg_s) S S En eps).
Proof. clear Hlg lg.
  intros Ecx Hd Hneg Hf HS Hcs ->.
  pose proof (l1_nonneg n _ _ HS) as S0.
  assert (0 <= N) as N0.
  { destruct Hd as (_ & Hl & _). destruct (Hcs 0%nat ltac:(lia)) as [_ K]. eapply near_nonneg; [exact Hn|exact K]. }
  assert (0 <= ep_bound n (g_base neg_s) (g_level neg_s) S S En eps) as EP0.
  { destruct Hneg as [((B1 & L1 & BL) & _) R]. destruct (R 0%nat ltac:(lia)) as [K _].
    apply ep_bound_nonneg; auto; [eapply near_nonneg; [exact Hn|exact K]|exact (fft_eps_nonneg n Hn _ _ _ _ Hf)]. }
  assert (forall i, (i < 2 * c_level cx)%nat -> wfc n (if Nat.even i then external_product fft neg_s (rlwe_allocate n) (nth (i / 2) cs nil_ct) else nth (i / 2) cs nil_ct)) as W.
  { intros i Hi. destruct (Hcs (i / 2)%nat) as [Wc _]; [apply Nat.div_lt_upper_bound; lia|].
    destruct (Nat.even i); [|exact Wc]. eapply wfc_external_product; [exact Hn|exact Hf|apply Hneg|apply wfc_allocate|exact Wc]. }
  split.
  - split; [exact Hd|]. cbn [g_rows g_level]. split; [rewrite map_length, seq_length; reflexivity|].
    apply Forall_forall. intros c Hc. apply in_map_iff in Hc as (i & <- & Hi). apply in_seq in Hi. apply W. lia.
  - cbn [g_level g_base]. intros i Hi. unfold row0, row1. cbn [g_rows]. rewrite !nth_map_seq by lia.
    rewrite even_double, even_double1, div_double, div_double1. destruct (Hcs i Hi) as [Wc Nc]. split.
    + eapply near_trans'; [exact Hn| | |].
      { eapply external_product_phase; [exact Hn|exact Hf|exact Hneg|apply wfc_allocate|exact Wc|exact HS|apply l1_opp; exact HS]. }
      { apply (near_eq_l n (pmul n (popp (tof s)) (phase n s (nth i cs nil_ct)))).
        { rewrite (phase_allocate n Hn). ring. }
        apply (near_eq_r n (pmul n (popp (tof s)) (pmul n (pcst (gadget (c_base cx) (i + 1))) m))); [ring|].
        apply near_mul_l1; [exact Hn|apply l1_opp; exact HS|exact Nc]. }
      nia.
    + eapply near_weaken; [exact Nc|]. nia.
Qed.

Lemma decomposed_ok fft eps cx s cs neg_s m N En S :
  c_n cx = n -> decomp_ok (c_base cx) (c_level cx) ->
  rgsw_encrypts n s neg_s (popp (tof s)) En -> fft_ok n fft (Dgb (g_base neg_s)) (2 * g_level neg_s) eps ->
  l1 n (tof s) S -> (c_level cx <= length cs)%nat ->
  (forall i, (i < c_level cx)%nat -> wfc n (nth i cs nil_ct) /\
     near n (phase n s (nth i cs nil_ct)) (pmul n (pcst (gadget (c_base cx) (i + 1))) m) N) ->
  exists g, decomposed_rlwe_to_rgsw fft cx cs neg_s = Ok g /\ g_base g = c_base cx /\ g_level g = c_level cx /\
    rgsw_encrypts n s g m ((1 + S) * N + ep_bound n (g_base neg_s) (g_level neg_s) S S En eps).
Proof. clear Hlg lg.
  intros Ecx Hd Hneg Hf HS Hlen Hcs. unfold decomposed_rlwe_to_rgsw. rewrite Ecx.
  rewrite (mapM_ok _ (fun i => if Nat.even i then external_product fft neg_s (rlwe_allocate n) (nth (i / 2) cs nil_ct) else nth (i / 2) cs nil_ct)).
  2:{ intros i Hi. apply in_seq in Hi. rewrite (index_ok cs (i / 2) nil_ct); [reflexivity|].
      eapply Nat.lt_le_trans; [|exact Hlen]. apply Nat.div_lt_upper_bound; lia. }
  cbn [bind]. eexists; split; [reflexivity|]. split; [reflexivity|]. split; [reflexivity|].
  eapply rows_to_rgsw; try eassumption. reflexivity.
Qed.

(** The constant term after the trace. *)
Lemma near_traced f base i b E K :
  (base * (i + 1) + lg <= 64)%nat -> 0 <= E ->
  nrm (f 0%nat - b * 2 ^ (64 - Z.of_nat (base * (i + 1)) - Z.of_nat lg)) <= E ->
  forall g, near n g (pcst (Z.of_nat n * f 0%nat)) K ->
  near n g (pmul n (pcst (gadget base (i + 1))) (pcst b)) (Z.of_nat n * E + K).
Proof.
  intros Hb HE H g Hg. eapply near_trans'; [exact Hn|exact Hg| |].
  - instantiate (1 := Z.of_nat n * E).
    apply (near_eq_r n (pcst (gadget base (i + 1) * b))); [symmetry; apply pcst_mul; exact Hn|].
    intros k Hk. unfold psub. destruct k as [|k]; cbn [pcst]; [|rewrite Z.sub_diag, nrm_0; nia].
    assert (gadget base (i + 1) = Z.of_nat n * 2 ^ (64 - Z.of_nat (base * (i + 1)) - Z.of_nat lg)) as ->.
    { unfold gadget. rewrite Hlg, Nat2Z.inj_pow. change (Z.of_nat 2) with 2.
      rewrite <- Z.pow_add_r by lia. f_equal. lia. }
    match goal with |- nrm ?x <= _ => replace x with (Z.of_nat n * (f 0%nat - b * 2 ^ (64 - Z.of_nat (base * (i + 1)) - Z.of_nat lg))) by ring end.
    etransitivity; [apply nrm_mul|]. pose proof (nrm_abs (Z.of_nat n)). pose proof (nrm_nonneg (f 0%nat - b * 2 ^ (64 - Z.of_nat (base * (i + 1)) - Z.of_nat lg))).
    assert (Z.abs (Z.of_nat n) = Z.of_nat n) by lia. nia.
  - lia.
Qed.

Notation expand_inputs := (expand_inputs n lg).

Lemma expand_core (tr : rlwe -> res rlwe) fft eps cx s cs neg_s b E K En S :
  c_n cx = n -> decomp_ok (c_base cx) (c_level cx) -> (c_base cx * c_level cx + lg <= 64)%nat ->
  rgsw_encrypts n s neg_s (popp (tof s)) En -> fft_ok n fft (Dgb (g_base neg_s)) (2 * g_level neg_s) eps ->
  l1 n (tof s) S -> expand_inputs cx s b E cs ->
  (forall c, wfc n c -> exists c', tr c = Ok c' /\ wfc n c' /\
      near n (phase n s c') (pcst (Z.of_nat n * phase n s c 0%nat)) ((Z.of_nat n - 1) * K)) ->
  exists cs', mapM tr cs = Ok cs' /\ length cs' = c_level cx /\
    (forall i, (i < c_level cx)%nat -> tr (nth i cs nil_ct) = Ok (nth i cs' nil_ct)) /\
    forall i, (i < c_level cx)%nat -> wfc n (nth i cs' nil_ct) /\
      near n (phase n s (nth i cs' nil_ct)) (pmul n (pcst (gadget (c_base cx) (i + 1))) (pcst b)) (Z.of_nat n * E + (Z.of_nat n - 1) * K).
Proof.
  intros Ecx Hd Hbl Hneg Hf HS (Lcs & Wcs & Hcs) Htr.
  destruct (mapM_Forall tr (fun _ => True) cs) as (cs' & Em & _).
  { intros c Hc. rewrite Forall_forall in Wcs. destruct (Htr c (Wcs c Hc)) as (c' & Ec & _). eauto. }
  pose proof (mapM_length _ _ _ Em) as Lm. exists cs'. split; [exact Em|]. split; [lia|].
  assert (forall i, (i < c_level cx)%nat -> tr (nth i cs nil_ct) = Ok (nth i cs' nil_ct)) as Tr.
  { intros i Hi. destruct (mapM_nth _ _ _ i (nth i cs nil_ct) Em) as (y & Ey & Ny); [apply nth_error_nth'; lia|].
    rewrite Ey. f_equal. symmetry. apply nth_error_nth. exact Ny. }
  split; [exact Tr|]. intros i Hi.
  rewrite Forall_forall in Wcs. destruct (Htr (nth i cs nil_ct)) as (c' & Ec & Wc & Nc); [apply Wcs, nth_In; lia|].
  rewrite (Tr i Hi) in Ec. injection Ec as ->. split; [exact Wc|].
  specialize (Hcs i Hi). apply (near_traced (phase n s (nth i cs nil_ct))); auto; [nia|].
  etransitivity; [|exact Hcs]. apply nrm_nonneg.
Qed.

Lemma expand_ok fft eps cx m s cs neg_s b E Ek En S : (1 <= lg)%nat ->
  c_n cx = n -> decomp_ok (c_base cx) (c_level cx) -> (c_base cx * c_level cx + lg <= 64)%nat ->
  rgsw_encrypts n s neg_s (popp (tof s)) En -> fft_ok n fft (Dgb (g_base neg_s)) (2 * g_level neg_s) eps ->
  subs_map_ok n s m (c_ks_base cx) (c_ks_level cx) Ek -> fft_ok n fft (Dgb (c_ks_base cx)) 1 eps ->
  l1 n (tof s) S -> expand_inputs cx s b E cs ->
  exists g, expand fft cx m neg_s cs = Ok g /\ g_base g = c_base cx /\ g_level g = c_level cx /\
    rgsw_encrypts n s g (pcst b)
      (expand_bound n S E (ks_bound n (c_ks_base cx) (c_ks_level cx) S S Ek (Z.of_nat (c_ks_level cx) * eps))
                    (ep_bound n (g_base neg_s) (g_level neg_s) S S En eps)).
Proof.
  intros Hlg1 Ecx Hd Hbl Hneg Hf Hm Hf2 HS Hin. unfold expand.
  destruct (expand_core (trace1 fft m) fft eps cx s cs neg_s b E
     (ks_bound n (c_ks_base cx) (c_ks_level cx) S S Ek (Z.of_nat (c_ks_level cx) * eps)) En S) as (cs' & Em & L' & _ & H'); auto.
  { intros c Wc. eapply trace1_ok; eassumption. }
  destruct Hin as (Lcs & _). destruct Hd as (D1 & D2 & D3).
  rewrite (index_ok cs 0 nil_ct) by lia. cbn [bind]. rewrite Em. cbn [bind].
  destruct (decomposed_ok fft eps cx s cs' neg_s (pcst b) _ En S Ecx ltac:(repeat split; assumption) Hneg Hf HS ltac:(lia) H')
    as (g & Eg & Gb & Gl & Rg).
  exists g. auto.
Qed.

Lemma expand_fourier_loop fft cx m neg_s cs cs' L : c_n cx = n ->
  (forall i, (i < L)%nat -> index cs i = Ok (nth i cs nil_ct)) ->
  (forall i, (i < L)%nat -> trace1_fourier fft m (nth i cs nil_ct) = Ok (nth i cs' nil_ct)) ->
  forall k c0, (k <= L)%nat ->
  exists c1, foldM (expand_fourier_row fft cx m neg_s cs) (seq 0 (2 * k)) (c0, []) =
    Ok (c1, map (fun i => if Nat.even i then external_product fft neg_s (rlwe_allocate n) (nth (i / 2) cs' nil_ct) else nth (i / 2) cs' nil_ct) (seq 0 (2 * k))).
Proof.
  intros Ecx Hi Ht. induction k as [|k IH]; intros c0 Hk; [exists c0; reflexivity|].
  destruct (IH c0 ltac:(lia)) as (c1 & E1).
  replace (2 * S k)%nat with (2 * k + 2)%nat by lia. rewrite seq_app, map_app. cbn [Nat.add].
  assert (forall {A T} (f : T -> A -> res T) l1 l2 z, foldM f (l1 ++ l2) z = bind (foldM f l1 z) (foldM f l2)) as FA.
  { intros A T f l1 l2. induction l1 as [|a l1 IH1]; intros z; cbn; [reflexivity|]. destruct (f z a); cbn; [apply IH1|reflexivity]. }
  rewrite FA, E1. cbn [bind seq foldM map].
  unfold expand_fourier_row at 1. cbn [fst snd]. rewrite even_double, div_double, (Hi k) by lia. cbn [bind]. rewrite (Ht k) by lia. cbn [bind].
  rewrite Ecx. unfold expand_fourier_row. cbn [fst snd].
  replace (S (2 * k))%nat with (2 * k + 1)%nat by lia. rewrite even_double1, div_double1. cbn [bind].
  eexists. rewrite <- app_assoc. reflexivity.
Qed.

Lemma expand_fourier_ok fft eps cx m s cs neg_s b E Ek En S : (1 <= lg)%nat ->
  c_n cx = n -> decomp_ok (c_base cx) (c_level cx) -> (c_base cx * c_level cx + lg <= 64)%nat ->
  rgsw_encrypts n s neg_s (popp (tof s)) En -> fft_ok n fft (Dgb (g_base neg_s)) (2 * g_level neg_s) eps ->
  subs_map_ok n s m (c_ks_base cx) (c_ks_level cx) Ek -> fft_ok n fft (Dgb (c_ks_base cx)) (c_ks_level cx + 1) eps ->
  l1 n (tof s) S -> expand_inputs cx s b E cs ->
  exists g, expand_fourier fft cx m neg_s cs = Ok g /\ g_base g = c_base cx /\ g_level g = c_level cx /\
    rgsw_encrypts n s g (pcst b)
      (expand_bound n S E (ks_bound n (c_ks_base cx) (c_ks_level cx) S S Ek eps)
                    (ep_bound n (g_base neg_s) (g_level neg_s) S S En eps)).
Proof.
  intros Hlg1 Ecx Hd Hbl Hneg Hf Hm Hf2 HS Hin. unfold expand_fourier.
  destruct (expand_core (trace1_fourier fft m) fft eps cx s cs neg_s b E
     (ks_bound n (c_ks_base cx) (c_ks_level cx) S S Ek eps) En S) as (cs' & Em & L' & T' & H'); auto.
  { intros c Wc. eapply trace1_fourier_ok; eassumption. }
  destruct Hin as (Lcs & _). pose proof Hd as (D1 & D2 & D3).
  rewrite (index_ok cs 0 nil_ct) by lia. cbn [bind].
  destruct (expand_fourier_loop fft cx m neg_s cs cs' (c_level cx) Ecx) with (k := c_level cx) (c0 := rlwe_allocate (c_n cx)) as (c1 & E1); auto.
  { intros i Hi. apply index_ok. lia. }
  rewrite E1. cbn [bind snd]. eexists; split; [reflexivity|]. split; [reflexivity|]. split; [reflexivity|].
  unfold expand_bound. eapply rows_to_rgsw; eauto.
Qed.
End Rl.
