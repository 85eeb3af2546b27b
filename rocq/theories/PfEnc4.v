(** * Encrypted features, comparison, and the whole evaluation protocol *)
From Coq Require Import Setoid Morphisms Ring.
From Verif Require Import MBase MUtils MCodec MPoly MRlwe MTree MEncTree SpecLwe SpecTree SpecEnc PolyRing PfPoly PfNear PfRlwe PfRlwe3 PfRlwe5 PfTree PfCodec PfLwe LRlwe LKeys PfEnc PfEnc2 PfEnc3.
Local Open Scope Z_scope.

Lemma params_n cx lg k : params_ok cx lg k -> (0 < c_n cx)%nat.
Proof. intros (-> & _). apply pow2_pos. Qed.

Section Ft.
Variable cx : ctx.
Variables (lg : nat) (k : Z).
Hypothesis Hp : params_ok cx lg k.
Notation n := (c_n cx).
Let Hlg : n = (2 ^ lg)%nat := proj1 Hp.
Let Hn := params_n cx lg k Hp.

Lemma params_lg : (lg <= 63)%nat.
Proof. pose proof Hp as (_ & _ & H & (A & B & _) & _). nia. Qed.
Lemma ulog2_n : ulog2 (c_mode cx) (Z.of_nat n) = Ok (Z.of_nat lg).
Proof.
  rewrite ulog2_nat; [|exact Hn|].
  - rewrite Hlg, Nat.log2_pow2 by lia. reflexivity.
  - rewrite Hlg, Nat2Z.inj_pow. apply Z.pow_lt_mono_r; pose proof params_lg; lia.
Qed.

Definition feature_cts (s : poly) (E : Z) (v : nat) (cs : list rlwe) : Prop :=
  length cs = c_level cx /\ Forall (wfc n) cs /\
  forall i, (i < c_level cx)%nat ->
    near n (phase n s (nth i cs nilc)) (pmul n (pcst (2 ^ (64 - Z.of_nat (c_base cx * (i + 1)) - Z.of_nat lg))) (mono n v)) E.

Lemma mono_tof v x : (v < n)%nat -> peq n (tof (poly_mono n v x)) (pmul n (pcst x) (mono n v)).
Proof.
  intros Hv i Hi. rewrite pmul_pcst_exact by assumption. rewrite tof_mono_nth by exact Hi.
  unfold mono. rewrite Nat.mod_small, Nat.div_small by exact Hv. unfold sg. cbn [Nat.even].
  rewrite Nat.eqb_sym. destruct (v =? i)%nat; apply eq_eqm; ring.
Qed.

Lemma feature_level_ok s v t E l : (v < n)%nat -> tape_ok n E t -> (1 <= l <= c_level cx)%nat ->
  exists c, encrypt_feature_level cx s (Z.of_nat lg) v t l = Ok c /\ wfc n c /\
    near n (phase n s c) (pmul n (pcst (2 ^ (64 - Z.of_nat (c_base cx * l) - Z.of_nat lg))) (mono n v)) E.
Proof.
  intros Hv Ht Hl. pose proof Hp as (_ & Hlg1 & Hbl & (B1 & L1 & BL) & _).
  assert (c_base cx * l + lg <= 64)%nat as Hbl' by nia.
  assert (1 <= c_base cx * l)%nat as Hb1 by nia.
  unfold encrypt_feature_level. rewrite (proj2 (Nat.ltb_lt v n) Hv). cbn [rassert bind].
  unfold usub at 1. destruct (Z.leb_spec (Z.of_nat (c_base cx * l)) 64); [|lia]. cbn [bind].
  unfold usub. destruct (Z.leb_spec (Z.of_nat lg) (64 - Z.of_nat (c_base cx * l))); [|lia]. cbn [bind].
  unfold ushl, BITS. destruct (Z.ltb_spec (64 - Z.of_nat (c_base cx * l) - Z.of_nat lg) 64); [|lia]. cbn [bind].
  rewrite Z.mul_1_l. set (x := 2 ^ (64 - Z.of_nat (c_base cx * l) - Z.of_nat lg)).
  rewrite wrap_id by (unfold x; apply pow_word; lia).
  rewrite upd_zero_mono by exact Hv.
  assert (length (poly_mono n v x) = n) as Lm by (unfold poly_mono; now rewrite map_length, seq_length).
  eexists; split; [reflexivity|]. split; [eapply wfc_encrypt; [exact Lm|apply Ht]|].
  eapply near_eq_r; [symmetry; apply mono_tof; exact Hv|]. apply near_encrypt; [exact Hn|exact Lm|apply Ht].
Qed.

Lemma mapM_seq_ok {B} (f : nat -> res B) (Q : nat -> B -> Prop) d : forall m a,
  (forall i, (a <= i < a + m)%nat -> exists y, f i = Ok y /\ Q i y) ->
  exists r, mapM f (seq a m) = Ok r /\ length r = m /\ forall i, (i < m)%nat -> Q (a + i)%nat (nth i r d).
Proof.
  clear. induction m as [|m IH]; intros a H; [exists []; repeat split; intros; lia|].
  cbn [seq mapM]. destruct (H a ltac:(lia)) as (y & -> & Qy). cbn [bind].
  destruct (IH (Datatypes.S a)) as (r & -> & Lr & Qr); [intros; apply H; lia|]. cbn [bind].
  exists (y :: r). split; [reflexivity|]. split; [cbn; congruence|]. intros [|i] Hi; [rewrite Nat.add_0_r; exact Qy|].
  rewrite Nat.add_succ_r, <- Nat.add_succ_l. apply Qr. lia.
Qed.

Lemma feature_ok s v t E : (v < n)%nat -> tape_ok n E t ->
  exists cs, mapM (encrypt_feature_level cx s (Z.of_nat lg) v t) (seq 1 (c_level cx)) = Ok cs /\ feature_cts s E v cs.
Proof.
  intros Hv Ht.
  destruct (mapM_seq_ok (encrypt_feature_level cx s (Z.of_nat lg) v t)
    (fun l c => wfc n c /\ near n (phase n s c) (pmul n (pcst (2 ^ (64 - Z.of_nat (c_base cx * l) - Z.of_nat lg))) (mono n v)) E)
    nilc (c_level cx) 1) as (r & Er & Lr & Qr).
  { intros i Hi. apply feature_level_ok; [exact Hv|exact Ht|lia]. }
  exists r. split; [exact Er|]. split; [exact Lr|]. split.
  - apply Forall_forall. intros c Hc. apply (In_nth _ _ nilc) in Hc as (i & Hi & <-). apply Qr. lia.
  - intros i Hi. rewrite (Nat.add_comm i 1). apply Qr. exact Hi.
Qed.

Lemma mapM_combine_ok {A B} (f : nat * A -> res B) (Q : A -> B -> Prop) : forall (l : list A) a,
  (forall j x, In x l -> exists y, f (j, x) = Ok y /\ Q x y) ->
  exists r, mapM f (combine (seq a (length l)) l) = Ok r /\ Forall2 Q l r.
Proof.
  clear. induction l as [|x l IH]; intros a H; [exists []; repeat constructor|].
  cbn [length seq combine mapM]. destruct (H a x (or_introl eq_refl)) as (y & -> & Qy). cbn [bind].
  destruct (IH (Datatypes.S a)) as (r & -> & Hr); [intros; apply H; right; assumption|]. cbn [bind].
  exists (y :: r). split; [reflexivity|]. constructor; assumption.
Qed.

Lemma feature_vector_ok s vs t E : Forall (fun v => (v < n)%nat) vs -> tape_ok n E t ->
  exists css, encrypt_feature_vector cx s vs t = Ok css /\ Forall2 (feature_cts s E) vs css.
Proof.
  intros Hv Ht. unfold encrypt_feature_vector. rewrite ulog2_n. cbn [bind].
  apply mapM_combine_ok. intros j x Hx. cbn [fst snd]. rewrite Forall_forall in Hv.
  apply feature_ok; [auto|apply tape_split; exact Ht].
Qed.
Lemma feature_vector_rejects s vs t : Exists (fun v => (n <= v)%nat) vs -> exists p, encrypt_feature_vector cx s vs t = Panic p.
Proof.
  intros H. unfold encrypt_feature_vector. rewrite ulog2_n. cbn [bind].
  assert (exists l, c_level cx = Datatypes.S l) as (l & El).
  { pose proof Hp as (_ & _ & _ & (_ & L1 & _) & _). exists (c_level cx - 1)%nat. lia. }
  assert (forall a, exists p, mapM (fun iv => mapM (encrypt_feature_level cx s (Z.of_nat lg) (snd iv) (split t (fst iv))) (seq 1 (c_level cx)))
       (combine (seq a (length vs)) vs) = Panic p) as G; [|apply (G 0%nat)].
  induction H as [v vs Hv|v vs H IH]; intros a; cbn [length seq combine mapM].
  - rewrite El. cbn [seq mapM fst snd].
    unfold encrypt_feature_level at 1. destruct (Nat.ltb_spec v n); [lia|]. cbn. eauto.
  - cbn [fst snd]. destruct (mapM (encrypt_feature_level cx s (Z.of_nat lg) v (split t a)) (seq 1 (c_level cx))); cbn [bind]; [|eauto].
    destruct (IH (Datatypes.S a)) as (p & ->). cbn. eauto.
Qed.

(** ** Comparison *)
Variable fft : fftT.
Variable eps : Z.
Hypothesis Hf : fft_for cx fft eps.
Variable s : poly.
Variables S E : Z.
Hypothesis Hs : binary_key n s.
Hypothesis HS : l1 n (tof s) S.
Variable ksks : ksk_map.
Variable neg_s : rgsw.
Hypothesis Hk : subs_map_ok n s ksks (c_ks_base cx) (c_ks_level cx) E.
Hypothesis Hneg : rgsw_encrypts n s neg_s (popp (tof s)) E.
Hypothesis Hnegb : g_base neg_s = c_base cx.
Hypothesis Hnegl : g_level neg_s = c_negs_level cx.

Lemma S_nonneg : 0 <= S.
Proof. eapply Z.le_trans; [|exact HS]. clear. generalize n as m. induction m as [|m IH]; cbn [sumf]; [lia|]. pose proof (nrm_nonneg (tof s m)). lia. Qed.

Lemma pow_base_le a b : (a <= b)%nat -> 2 ^ (Z.of_nat a - 1) <= 2 ^ (Z.of_nat b - 1).
Proof.
  clear. intros H. destruct a as [|a].
  - change (2 ^ (Z.of_nat 0 - 1)) with 0. apply Z.pow_nonneg; lia.
  - apply Z.pow_le_mono_r; lia.
Qed.
Lemma fft_ks : fft_ok n fft (2 ^ (Z.of_nat (c_ks_base cx) - 1)) (c_ks_level cx + 1) eps.
Proof. eapply fft_ok_weaken; [| |exact Hf]; [apply pow_base_le; lia|lia]. Qed.
Lemma fft_neg : fft_ok n fft (2 ^ (Z.of_nat (c_base cx) - 1)) (2 * c_negs_level cx) eps.
Proof. eapply fft_ok_weaken; [| |exact Hf]; [apply pow_base_le; lia|lia]. Qed.
Lemma fft_ep : fft_ok n fft (2 ^ (Z.of_nat (c_base cx) - 1)) (2 * c_level cx) eps.
Proof. eapply fft_ok_weaken; [| |exact Hf]; [apply pow_base_le; lia|lia]. Qed.
Lemma fft_1 : fft_ok n fft 1 1 eps.
Proof.
  pose proof Hp as (_ & _ & _ & (B1 & L1 & _) & _).
  eapply fft_ok_weaken; [| |exact fft_ep]; [|lia]. change 1 with (2 ^ (Z.of_nat 1 - 1)). apply pow_base_le. exact B1.
Qed.

Lemma compare_node_ok v th ix f l r css cs : nth_error css f = Some cs -> feature_cts s E v cs -> (v < n)%nat -> (th < n)%nat ->
  exists g, compare_node fft cx ksks neg_s css (Internal th f ix LEQ l r) = Ok g /\
    const_ct n s (c_base cx) (c_level cx) (decision_noise cx S E eps) (b2z (v <=? th)%nat) g.
Proof.
  intros Hcs (Lcs & Wcs & Ncs) Hv Hth. cbn [compare_node]. unfold index at 1. rewrite Hcs. cbn [bind].
  pose proof S_nonneg as S0. pose proof (fft_eps_nonneg n Hn fft _ _ _ fft_1) as He.
  assert (0 <= E) as E0 by (eapply near_nonneg; [exact Hn|]; apply (proj1 (proj2 Hneg 0%nat ltac:(rewrite Hnegl; pose proof Hp as (_&_&_&_&_&(_&L&_)&_); lia)))).
  destruct (mapM_Forall (fun c => let ct := rlwe_fill_with_copy (rlwe_allocate n) c in less_eq_than n fft ct th) (fun _ => True) cs) as (ds & Eds & _).
  { intros c Hc. apply (In_nth _ _ nilc) in Hc as (i & Hi & <-). unfold rlwe_fill_with_copy. cbv zeta.
    destruct (less_eq_than_ok n Hn fft eps (nth i cs nilc) s S E _ v th fft_1 (nth_wfc n cs i Wcs Hi) HS Hv Hth (Ncs i ltac:(lia))) as (c' & -> & _); eauto. }
  change (mapM _ cs) with (mapM (fun c => let ct := rlwe_fill_with_copy (rlwe_allocate n) c in less_eq_than n fft ct th) cs).
  rewrite Eds. cbn [bind].
  assert (length ds = c_level cx) as Lds by (rewrite (mapM_length _ _ _ Eds); exact Lcs).
  assert (forall i, (i < c_level cx)%nat -> wfc n (nth i ds nilc) /\
     nrm (phase n s (nth i ds nilc) 0%nat - b2z (v <=? th)%nat * 2 ^ (64 - Z.of_nat (c_base cx * (i + 1)) - Z.of_nat lg))
       <= Z.of_nat n * E + (1 + S) * eps) as Hds.
  { intros i Hi. destruct (mapM_nth _ _ _ i (nth i cs nilc) Eds) as (y & Ey & Ny); [apply nth_error_nth'; lia|].
    rewrite (nth_error_nth _ _ nilc Ny). unfold rlwe_fill_with_copy in Ey. cbv zeta in Ey.
    destruct (less_eq_than_ok n Hn fft eps (nth i cs nilc) s S E _ v th fft_1 (nth_wfc n cs i Wcs ltac:(lia)) HS Hv Hth (Ncs i Hi)) as (c' & Ec' & Wc' & Bc').
    rewrite Ec' in Ey. injection Ey as <-. split; [exact Wc'|].
    replace (b2z (v <=? th)%nat * 2 ^ (64 - Z.of_nat (c_base cx * (i + 1)) - Z.of_nat lg))
      with (if (v <=? th)%nat then 2 ^ (64 - Z.of_nat (c_base cx * (i + 1)) - Z.of_nat lg) else 0) by (destruct (v <=? th)%nat; cbn [b2z]; ring).
    eapply Z.le_trans; [exact Bc'|]. apply Z.add_le_mono_r. apply Z.mul_le_mono_nonneg_r; [exact E0|lia]. }
  pose proof Hp as (_ & Hlg1 & Hbl & Hd & Hdk & Hdn & Hnb & _).
  destruct (expand_fourier_ok n Hn lg Hlg fft eps cx ksks s ds neg_s (b2z (v <=? th)%nat) (Z.of_nat n * E + (1 + S) * eps) E E S)
    as (g & Eg & Gb & Gl & Rg); try assumption; try reflexivity.
  - rewrite Hnegb, Hnegl. exact fft_neg.
  - exact fft_ks.
  - split; [exact Lds|]. split.
    + apply Forall_forall. intros c Hc. apply (In_nth _ _ nilc) in Hc as (i & Hi & <-). apply Hds. lia.
    + intros i Hi. apply Hds. exact Hi.
  - exists g. split; [exact Eg|]. split; [|split; assumption]. rewrite Hnegb, Hnegl in Rg. exact Rg.
Qed.

(** All nodes of a tree. *)
Lemma compare_expand_ok t fs css : evaluable t fs -> Forall (fun v => (v < n)%nat) fs ->
  (forall th f ix op l r, sub (Internal th f ix op l r) t -> (th < n)%nat) -> Forall2 (feature_cts s E) fs css ->
  exists gs, compare_expand fft cx (flatten t) css neg_s ksks = Ok gs /\
    Forall2 (decision_ct n s (c_base cx) (c_level cx) (decision_noise cx S E eps) fs) gs (preorder t).
Proof.
  intros He Hv Hth Hcs. unfold compare_expand. rewrite flatten_spec.
  assert (Forall (fun nd => let '(th, f, _, op) := nd in op = LEQ /\ (f < length fs)%nat /\ (th < n)%nat) (preorder t)) as HP.
  { clear Hcs Hv. induction t as [x | th f ix op l r IHl IHr] using node_ind'; [constructor|].
    pose proof (evaluable_inv _ _ _ _ _ _ _ He) as (Eo & Ef & El & Er).
    cbn [preorder]. constructor; [repeat split; [exact Eo|exact Ef|eapply Hth; constructor]|].
    apply Forall_app. split.
    - destruct l as [a|]; [|constructor]. apply (IHl a eq_refl); [apply El; reflexivity|]. intros; eapply Hth; eapply sub_left; eassumption.
    - destruct r as [a|]; [|constructor]. apply (IHr a eq_refl); [apply Er; reflexivity|]. intros; eapply Hth; eapply sub_right; eassumption. }
  induction HP as [|[[[th f] ix] op] nds (-> & Hfl & Hth') HP IH]; cbn [map mapM]; [exists []; split; [reflexivity|constructor]|].
  assert (exists v, nth_error fs f = Some v) as (v & Ev) by (destruct (nth_error fs f) eqn:Ex; [eauto|apply nth_error_None in Ex; lia]).
  destruct (Forall2_nth_error _ _ _ f v Hcs Ev) as (cs & Ecs & Fcs).
  assert (v < n)%nat as Hvn by (rewrite Forall_forall in Hv; apply Hv; eapply nth_error_In; exact Ev).
  destruct (compare_node_ok v th ix f (Some (Leaf 0)) (Some (Leaf 0)) css cs Ecs Fcs Hvn Hth') as (g & Eg & Cg).
  cbn [stub]. rewrite Eg. cbn [bind]. destruct IH as (gs & -> & Hgs). cbn [bind].
  exists (g :: gs). split; [reflexivity|]. constructor; [|exact Hgs]. split; [reflexivity|]. exists v. split; assumption.
Qed.

Definition total_noise (t : node) : Z :=
  Z.of_nat (list_sum (leaf_depths t)) * ep_bound n (c_base cx) (c_level cx) S 1 (decision_noise cx S E eps) eps.

Lemma server_ok t fs css :
  (exists th f ix op l r, t = Internal th f ix op l r) -> evaluable t fs -> Forall (fun v => (v < n)%nat) fs ->
  (forall th f ix op l r, sub (Internal th f ix op l r) t -> (th < n)%nat) -> Forall2 (feature_cts s E) fs css ->
  Forall (fun x => Z.of_nat x < 2 ^ 48) (labels t) ->
  exists x outs, predicts t fs x /\ server_f fft cx t neg_s ksks css = Ok outs /\ Forall (wfc n) outs /\
    length outs = Nat.log2_up (list_max (labels t) + 1) /\
    (forall i c, nth_error outs i = Some c -> near n (phase n s c) (pcst (b2z (Nat.testbit x i) * 2 ^ (64 - k))) (total_noise t)) /\
    (2 * total_noise t < 2 ^ (64 - k) -> (exists y, In y (labels t) /\ y <> 0%nat) -> decrypt_and_recompose cx s outs = Ok (Z.of_nat x)).
Proof.
  intros Hi He Hv Hth Hcs Hlab. unfold server_f.
  destruct (compare_expand_ok t fs css He Hv Hth Hcs) as (gs & -> & HF). cbn [bind].
  assert (length gs = count_internal t) as Lg by (rewrite (Forall2_len _ _ _ HF); apply preorder_length).
  destruct (enc_node_new_spec t gs [] Hi Lg) as (e & Ee & Me). rewrite app_nil_r in Ee. rewrite Ee. cbn [bind].
  pose proof Hp as (_ & _ & _ & _ & _ & _ & _ & Hk63 & Hc).
  destruct (eval_C36 cx fft eps (c_base cx) (c_level cx) s S _ fs t e gs k Hn Hk63 Hc fft_ep HS Me HF Hlab)
    as (x & outs & Px & Eo & Lo & Wo & _ & No & Do).
  exists x, outs. repeat split; try assumption.
Qed.
End Ft.
