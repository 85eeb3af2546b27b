(** * The unit tests pass: noise measurement and Fourier multiplication. *)
From Verif Require Import MBase MUtils MCodec MPoly MRlwe MLwe MTree MEncTree MCtx MMain MTests.
From Verif Require Import SpecRing SpecLwe SpecEnc SpecOram.
From Verif Require Import PolyRing PfCodec PfPoly PfNear PfRlwe PfRlwe2 PfRlwe3 PfRlwe5 PfEnc PfEnc2 PfEnc3 PfEnc4 LRlwe LKeys LOram PRlwe PKeys PEnc PLwe PDefault PBench PfTests.
Local Open Scope Z_scope.

(** [v] is the largest distance from 0 among the coefficients of [f]. *)
Definition largest (n : nat) (f : P) (v : Z) : Prop := bd n f v /\ exists i, (i < n)%nat /\ nrm (f i) = v.
(** The sum of products [f_1 g_1 + f_2 g_2 + ..]. *)
Definition products (n : nat) (pairs : list (poly * poly)) : P := fold_right (fun ab f => padd f (pmul n (tof (fst ab)) (tof (snd ab)))) pzero (rev pairs).

Lemma nrm_cong x y : eqm x y -> nrm x = nrm y.
Proof. unfold eqm, nrm. intros ->. reflexivity. Qed.

Section Noise.
Variables (cx : ctx) (lg : nat) (k : Z).
Hypothesis Hp : params_ok cx lg k.
Notation n := (c_n cx).
Lemma measured s c e f v : wfc n c -> wfp n e -> peq n (psub (phase n s c) (tof e)) f -> largest n f v -> v < 2 ^ 63 -> compute_noise (c_mode cx) n s c e = Ok v.
Proof.
  intros Wc We Hf [Hb (i & Hi & Hv)] Hlt. pose proof (params_n cx lg k Hp) as Hn.
  assert (forall j, (j < n)%nat -> nrm (phase n s c j - tof e j) = nrm (f j)) as Q by (intros j Hj; apply nrm_cong, (Hf j Hj)).
  destruct (compute_noise_ok n Hn (c_mode cx) s c e Wc We) as (w & Ew & W0 & W1 & W2).
  { right. intros j Hj. rewrite (Q j Hj). specialize (Hb j Hj). lia. }
  rewrite Ew. f_equal. specialize (W1 i Hi). rewrite (Q i Hi), Hv in W1. specialize (W1 Hlt).
  destruct W2 as [-> | (j & Hj & Ej)]; [pose proof (nrm_nonneg (f i)); lia|]. rewrite (Q j Hj) in Ej. specialize (Hb j Hj). lia.
Qed.
Lemma test_compute_noise_iff s pt d dz E log_std v0 v1 : plaintext n k pt -> draw_ok n E d -> draw_ok n E dz ->
  largest n (tof (d_noise d)) v0 -> largest n (padd (tof (d_noise d)) (tof (d_noise dz))) v1 -> v0 < 2 ^ 63 -> v1 < 2 ^ 63 ->
  (test_compute_noise cx log_std s pt d dz = Ok tt <-> v0 < 2 ^ (67 + log_std) /\ v0 < v1).
Proof.
  intros Hpt Hd Hz L0 L1 B0 B1. pose proof (params_n cx lg k Hp) as Hn. pose proof Hp as (_ & _ & _ & _ & _ & _ & _ & Hk & Hcd).
  destruct (encode_scaled n _ _ _ pt Hk Hcd Hpt) as (e & Ee & We & _). pose proof (wfp_len _ _ We) as Le.
  assert (length (poly_zero n) = n) as Lz by apply repeat_length.
  pose proof (wfc_encrypt n s e E d Le Hd) as W0. pose proof (wfc_encrypt n s (poly_zero n) E dz Lz Hz) as Wz.
  pose proof (phase_encrypt n Hn s e E d Le Hd) as P0. pose proof (phase_encrypt n Hn s (poly_zero n) E dz Lz Hz) as Pz.
  unfold test_compute_noise. rewrite Ee. cbn [bind]. cbv zeta.
  rewrite (measured s (encrypt_rlwe n s e d) e (tof (d_noise d)) v0); [|exact W0|exact We| |exact L0|exact B0].
  2:{ rewrite P0. intros i _. unfold psub, padd. apply eq_eqm. ring. }
  cbn [bind].
  rewrite (measured s (rlwe_add (encrypt_rlwe n s e d) (encrypt_rlwe n s (poly_zero n) dz)) e (padd (tof (d_noise d)) (tof (d_noise dz))) v1); [|apply wfc_add; assumption|exact We| |exact L1|exact B1].
  2:{ rewrite (phase_add n Hn s _ _ W0 Wz), P0, Pz, tof_zero. intros i _. unfold psub, padd, pzero. apply eq_eqm. ring. }
  destruct (Z.ltb_spec v0 (2 ^ (67 + log_std))) as [H1|H1]; cbn [rassert bind].
  - destruct (Z.ltb_spec v0 v1) as [H2|H2]; cbn [rassert].
    + split; [intros _; split; assumption|reflexivity].
    + split; [discriminate|intros [_ H]; lia].
  - split; [discriminate|intros [H _]; lia].
Qed.
End Noise.

Lemma products_snoc n l ab : products n (l ++ [ab]) = padd (products n l) (pmul n (tof (fst ab)) (tof (snd ab))).
Proof. unfold products. rewrite rev_app_distr. reflexivity. Qed.

(** Two words whose distance on the circle is at most [B] differ by at most [B] if the second is not within [B] of the wrap. *)
Lemma no_wrap x y B : is_word x -> is_word y -> nrm (x - y) <= B -> B <= y < q - B -> Z.abs (x - y) <= B.
Proof.
  intros Hx Hy HN HB. unfold is_word in *. destruct (nrm_rep (x - y)) as (z & Hz & Az). rewrite Az in HN. apply eqm_alt in Hz as (t & Ht). unfold q in *.
  assert (t = 0); [|subst; lia]. nia.
Qed.

Lemma test_fourier_mul_with_ok close B n fft eps pairs : (forall x y, is_word x -> is_word y -> Z.abs (x - y) <= B -> close x y = true) -> (0 < n)%nat -> 0 <= eps ->
  Forall (fun ab => wfp n (fst ab) /\ wfp n (snd ab) /\ wfp n (fft [ab]) /\ near n (tof (fft [ab])) (pmul n (tof (fst ab)) (tof (snd ab))) eps) pairs ->
  Z.of_nat (length pairs) * eps <= B ->
  (forall j i, (1 <= j <= length pairs)%nat -> (i < n)%nat -> Z.of_nat (length pairs) * eps <= products n (firstn j pairs) i mod q < q - Z.of_nat (length pairs) * eps) ->
  test_fourier_mul_with close fft n pairs = Ok tt.
Proof.
  intros Hclose Hn He HF HB HW. unfold test_fourier_mul_with.
  assert (forall rest done, pairs = done ++ rest -> forall f g, wfp n f -> wfp n g -> peq n (tof g) (products n done) -> near n (tof f) (tof g) (Z.of_nat (length done) * eps) ->
    exists st, foldM (fun st ab =>
      let out_fourier := fourier_update_with_mul_acc fft (fst st) (fst ab) (snd ab) in
      let out_naive := naive_update_with_mul_acc n (snd st) (fst ab) (snd ab) in
      rassert (forallb (fun xy => close (fst xy) (snd xy)) (combine out_fourier out_naive)) ;;; Ok (out_fourier, out_naive)) rest (f, g) = Ok st) as G.
  { induction rest as [|ab rest IH]; intros done Epq f g Wf Wg Pg Nf; cbn [foldM]; [eexists; reflexivity|].
    assert (In ab pairs) as Hin by (rewrite Epq; apply in_or_app; right; left; reflexivity). rewrite Forall_forall in HF. destruct (HF ab Hin) as (Wa & Wb & Wo & No).
    cbv zeta. destruct ab as [pa pb]. cbn [fst snd] in *. unfold fourier_update_with_mul_acc, naive_update_with_mul_acc, add_backward.
    pose proof (wfp_len _ _ Wo) as Lo. pose proof (wfp_len _ _ Wf) as Lf. pose proof (wfp_len _ _ Wg) as Lg. pose proof (wfp_mul n (pa) (pb)) as Wm. pose proof (wfp_len _ _ Wm) as Lm.
    set (f' := poly_add f (fft [(pa, pb)])). set (g' := poly_add g (poly_mul n (pa) (pb))).
    match goal with |- context [combine ?F ?G] => change F with f'; change G with g' end.
    assert (wfp n f') as Wf' by (apply wfp_add; assumption). assert (wfp n g') as Wg' by (apply wfp_add; assumption).
    assert (peq n (tof g') (products n (done ++ [(pa, pb)]))) as Pg'.
    { rewrite products_snoc. unfold g'. rewrite (tof_add n) by assumption. rewrite Pg. rewrite (tof_mul n) by assumption. reflexivity. }
    assert (near n (tof f') (tof g') (Z.of_nat (length (done ++ [(pa, pb)])) * eps)) as Nf'.
    { eapply near_weaken; [|rewrite app_length; cbn [length]; instantiate (1 := Z.of_nat (length done) * eps + eps); lia].
      unfold f', g'. eapply near_eq_l; [rewrite (tof_add n) by assumption; reflexivity|]. eapply near_eq_r; [rewrite (tof_add n) by assumption; reflexivity|].
      apply near_add; [exact Hn|exact Nf|]. eapply near_eq_r; [rewrite (tof_mul n) by assumption; reflexivity|]. exact No. }
    assert (forallb (fun xy => close (fst xy) (snd xy)) (combine f' g') = true) as ->.
    { apply forallb_forall. intros [x y] Hxy. cbn [fst snd]. apply (In_nth _ _ (0, 0)) in Hxy as (i & Hi & Exy).
      rewrite combine_length, (wfp_len _ _ Wf'), (wfp_len _ _ Wg'), Nat.min_id in Hi. rewrite combine_nth in Exy by (rewrite (wfp_len _ _ Wf'), (wfp_len _ _ Wg'); reflexivity). injection Exy as <- <-.
      assert ((length (done ++ [(pa, pb)]) <= length pairs)%nat) as Hle by (rewrite Epq, !app_length; cbn [length]; lia).
      assert (Z.of_nat (length (done ++ [(pa, pb)])) * eps <= Z.of_nat (length pairs) * eps) as Hm by (apply Z.mul_le_mono_nonneg_r; lia).
      pose proof (Nf' i Hi) as Ni. unfold psub, tof in Ni.
      pose proof (wfp_word n g' i Wg') as Hwg. pose proof (wfp_word n f' i Wf') as Hwf. change (is_word (nth i g' 0)) in Hwg. change (is_word (nth i f' 0)) in Hwf.
      apply Hclose; [exact Hwf|exact Hwg|]. assert (Z.abs (nth i f' 0 - nth i g' 0) <= Z.of_nat (length pairs) * eps); [|lia].
      apply no_wrap; [exact Hwf|exact Hwg|lia|].
      specialize (HW (length (done ++ [(pa, pb)])) i ltac:(split; [rewrite app_length; cbn [length]; lia|exact Hle]) Hi).
      replace (firstn (length (done ++ [(pa, pb)])) pairs) with (done ++ [(pa, pb)]) in HW.
      2:{ rewrite Epq. change ((pa, pb) :: rest) with ([(pa, pb)] ++ rest). rewrite app_assoc, firstn_app, Nat.sub_diag, firstn_all, firstn_O, app_nil_r. reflexivity. }
      pose proof (Pg' i Hi) as Q. unfold tof, eqm in Q. rewrite (Z.mod_small (nth i g' 0)) in Q by exact Hwg. rewrite <- Q in HW. exact HW. }
    cbn [rassert bind]. apply (IH (done ++ [(pa, pb)])); auto. rewrite <- app_assoc. exact Epq. }
  assert (wfp n (poly_zero n)) as W0.
  { split; [apply repeat_length|]. apply Forall_forall. intros x Hx. apply repeat_spec in Hx. subst. split; [lia|reflexivity]. }
  destruct (G pairs [] eq_refl (poly_zero n) (poly_zero n) W0 W0) as (st & Est).
  - rewrite tof_zero. reflexivity.
  - apply near_refl. reflexivity.
  - match type of Est with ?l = _ => change (bind l (fun _ => Ok tt) = Ok tt) end. rewrite Est. reflexivity.
Qed.

Lemma test_fourier_mul_ok n fft eps pairs : (0 < n)%nat -> 0 <= eps ->
  Forall (fun ab => wfp n (fst ab) /\ wfp n (snd ab) /\ wfp n (fft [ab]) /\ near n (tof (fft [ab])) (pmul n (tof (fst ab)) (tof (snd ab))) eps) pairs ->
  Z.of_nat (length pairs) * eps < 18446744074 ->
  (forall j i, (1 <= j <= length pairs)%nat -> (i < n)%nat -> Z.of_nat (length pairs) * eps <= products n (firstn j pairs) i mod q < q - Z.of_nat (length pairs) * eps) ->
  test_fourier_mul fft n pairs = Ok tt.
Proof.
  intros Hn He HF HB HW. apply (test_fourier_mul_with_ok _ 18446744073 n fft eps); auto; [|lia]. intros x y _ _ H. apply Z.ltb_lt. lia.
Qed.

(** What a passing run says about the products. *)
Lemma test_fourier_mul_with_means close B n fft pairs : (0 < n)%nat -> 0 <= B -> (forall x y, is_word x -> is_word y -> close x y = true -> Z.abs (x - y) <= B) ->
  Forall (fun ab => wfp n (fst ab) /\ wfp n (snd ab) /\ wfp n (fft [ab])) pairs -> test_fourier_mul_with close fft n pairs = Ok tt ->
  Forall (fun ab => near n (tof (fft [ab])) (pmul n (tof (fst ab)) (tof (snd ab))) (2 * B)) pairs.
Proof.
  intros Hn HB Hclose HF. unfold test_fourier_mul_with.
  assert (forall rest f g, Forall (fun ab => wfp n (fst ab) /\ wfp n (snd ab) /\ wfp n (fft [ab])) rest -> wfp n f -> wfp n g -> near n (tof f) (tof g) B -> forall st,
    foldM (fun st ab =>
      let out_fourier := fourier_update_with_mul_acc fft (fst st) (fst ab) (snd ab) in
      let out_naive := naive_update_with_mul_acc n (snd st) (fst ab) (snd ab) in
      rassert (forallb (fun xy => close (fst xy) (snd xy)) (combine out_fourier out_naive)) ;;; Ok (out_fourier, out_naive)) rest (f, g) = Ok st ->
    Forall (fun ab => near n (tof (fft [ab])) (pmul n (tof (fst ab)) (tof (snd ab))) (2 * B)) rest) as G.
  { induction rest as [|[pa pb] rest IH]; intros f g HR Wf Wg Nf st E; [constructor|]. apply Forall_cons_iff in HR as [(Wa & Wb & Wo) HR]. cbn [fst snd] in *.
    cbn [foldM] in E. cbv zeta in E. cbn [fst snd] in E. unfold fourier_update_with_mul_acc, naive_update_with_mul_acc, add_backward in E.
    pose proof (wfp_len _ _ Wo) as Lo. pose proof (wfp_len _ _ Wf) as Lf. pose proof (wfp_len _ _ Wg) as Lg. pose proof (wfp_mul n pa pb) as Wm. pose proof (wfp_len _ _ Wm) as Lm.
    set (f' := poly_add f (fft [(pa, pb)])) in *. set (g' := poly_add g (poly_mul n pa pb)) in *.
    assert (wfp n f') as Wf' by (apply wfp_add; assumption). assert (wfp n g') as Wg' by (apply wfp_add; assumption).
    match type of E with context [combine ?F ?G] => change F with f' in E; change G with g' in E end.
    destruct (forallb _ _) eqn:EF in E; [|discriminate E]. cbn [rassert bind] in E.
    assert (near n (tof f') (tof g') B) as Nf'.
    { intros i Hi. unfold psub, tof. rewrite forallb_forall in EF.
      assert (In (nth i f' 0, nth i g' 0) (combine f' g')) as Hin.
      { rewrite <- combine_nth by (rewrite (wfp_len _ _ Wf'), (wfp_len _ _ Wg'); reflexivity). apply nth_In. rewrite combine_length, (wfp_len _ _ Wf'), (wfp_len _ _ Wg'), Nat.min_id. exact Hi. }
      specialize (EF _ Hin). cbn [fst snd] in EF. apply Hclose in EF; [|apply (wfp_word n f' i Wf')|apply (wfp_word n g' i Wg')].
      etransitivity; [apply nrm_abs|exact EF]. }
    constructor; [|eapply (IH f' g'); eassumption]. cbn [fst snd].
    assert (near n (psub (tof f') (tof f)) (psub (tof g') (tof g)) (B + B)) as D by (apply near_sub; assumption).
    replace (2 * B) with (B + B) by lia. eapply near_eq_l; [|eapply near_eq_r; [|exact D]].
    - unfold f'. rewrite (tof_add n) by assumption. intros i _. apply eq_eqm. unfold psub, padd. ring.
    - unfold g'. rewrite (tof_add n) by assumption. rewrite (tof_mul n) by assumption. intros i _. apply eq_eqm. unfold psub, padd. ring. }
  intros E. destruct (foldM _ _ _) as [st|] eqn:EM in E; [|discriminate E].
  assert (wfp n (poly_zero n)) as W0.
  { split; [apply repeat_length|]. apply Forall_forall. intros x Hx. apply repeat_spec in Hx. subst. split; [lia|reflexivity]. }
  eapply (G pairs (poly_zero n) (poly_zero n)); try eassumption. apply near_eq; [exact HB|reflexivity].
Qed.
