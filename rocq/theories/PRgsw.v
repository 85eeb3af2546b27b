(** * Properties C63 and C64: the rows of RGSW ciphertexts, their noise report, and building them from
    RLWE ciphertexts. *)
From Verif Require Import MBase MUtils MCodec MPoly MRlwe.
From Verif Require Import SpecRing SpecLwe PolyRing PfPoly PfNear PfRlwe PfRlwe3 PfRlwe5 LRlwe LKeys PfDet2 Demo PKeys.
Local Open Scope Z_scope.

Lemma nth_row_ok g i d : (i < length (g_rows g))%nat -> get_nth_row g i = Ok (nth i (g_rows g) d).
Proof. intros Hi. unfold get_nth_row. rewrite (nth_error_nth' _ d Hi). reflexivity. Qed.

(** C63.  [get_nth_row]: rows 2i and 2i+1 belong to level i+1 of the gadget; they encrypt -g*m*s and g*m.
    Rows that do not exist are rejected.  [get_last_row] is the message row of the last level. *)
Theorem C63_rows : forall n s g m E, rgsw_encrypts n s g m E ->
  (forall i, (i < g_level g)%nat ->
    exists r0 r1, get_nth_row g (2 * i) = Ok r0 /\ get_nth_row g (2 * i + 1) = Ok r1 /\ wfc n r0 /\ wfc n r1 /\
      near n (phase n s r0) (popp (pmul n (pcst (2 ^ (64 - Z.of_nat (g_base g * (i + 1))))) (pmul n m (tof s)))) E /\
      near n (phase n s r1) (pmul n (pcst (2 ^ (64 - Z.of_nat (g_base g * (i + 1))))) m) E) /\
  (exists r, get_last_row g = Ok r /\ near n (phase n s r) (pmul n (pcst (2 ^ (64 - Z.of_nat (g_base g * g_level g)))) m) E) /\
  (forall i, (2 * g_level g <= i)%nat -> get_nth_row g i = Panic PUnwrap).
Proof.
  intros n s g m E ((Hd & Hl & HF) & H).
  assert (forall i, (i < g_level g)%nat ->
    exists r0 r1, get_nth_row g (2 * i) = Ok r0 /\ get_nth_row g (2 * i + 1) = Ok r1 /\ wfc n r0 /\ wfc n r1 /\
      near n (phase n s r0) (popp (pmul n (pcst (gadget (g_base g) (i + 1))) (pmul n m (tof s)))) E /\
      near n (phase n s r1) (pmul n (pcst (gadget (g_base g) (i + 1))) m) E) as H1.
  { intros i Hi. exists (row0 g i), (row1 g i). destruct (H i Hi) as [A B].
    split; [apply nth_row_ok; lia|]. split; [apply nth_row_ok; lia|]. rewrite Forall_forall in HF.
    split; [apply HF; apply nth_In; lia|]. split; [apply HF; apply nth_In; lia|]. split; [exact A|exact B]. }
  split; [exact H1|]. split.
  - destruct Hd as (_ & D2 & _). destruct (H1 (g_level g - 1)%nat ltac:(lia)) as (r0 & r1 & _ & E1 & _ & _ & _ & B).
    exists r1. unfold get_last_row. replace (g_level g * 2 - 1)%nat with (2 * (g_level g - 1) + 1)%nat by lia. split; [exact E1|].
    unfold gadget in B. replace (g_level g - 1 + 1)%nat with (g_level g) in B by lia. exact B.
  - intros i Hi. unfold get_nth_row. destruct (nth_error (g_rows g) i) eqn:En; [|reflexivity].
    assert (nth_error (g_rows g) i <> None) as Hne by congruence. apply nth_error_Some in Hne. lia.
Qed.
Print Assumptions C63_rows.

(** [encrypt_constant_rgsw_vec] encrypts every entry, in the order of the vector. *)
Theorem C63_encrypt_vec : forall cx s v t E, (0 < c_n cx)%nat -> wfp (c_n cx) s -> decomp_ok (c_base cx) (c_level cx) -> tape_ok (c_n cx) E t ->
  Forall2 (fun g m => rgsw_encrypts (c_n cx) s g (pcst m) E /\ g_base g = c_base cx /\ g_level g = c_level cx) (encrypt_constant_rgsw_vec cx s v t) v.
Proof.
  intros cx s v t E Hn Hs Hd Ht. unfold encrypt_constant_rgsw_vec. generalize 0%nat.
  induction v as [|m v IH]; intros j; cbn [length seq combine map]; constructor.
  - split; [|split; reflexivity]. apply C18_encrypt_constant_rgsw; try assumption. intros i. apply Ht.
  - apply IH.
Qed.
Print Assumptions C63_encrypt_vec.

(** The randomness of the parts of a computation is independent: whatever each part is to draw, some tape gives
    exactly that. *)
Lemma tri_le a b : (a < b)%nat -> (a * (a + 1) / 2 + a < b * (b + 1) / 2)%nat.
Proof.
  intros H. assert (a * (a + 1) / 2 + a + 1 <= b * (b + 1) / 2)%nat; [|lia]. replace (a * (a + 1) / 2 + a + 1)%nat with ((a * (a + 1) + (a + 1) * 2) / 2)%nat.
  - apply Nat.div_le_mono; [lia|]. nia.
  - rewrite Nat.div_add by lia. lia.
Qed.
Lemma cpair_inj i j i' j' : cpair i j = cpair i' j' -> i = i' /\ j = j'.
Proof.
  unfold cpair. intros H. destruct (Nat.lt_trichotomy (i + j) (i' + j')) as [L|[L|L]].
  - pose proof (tri_le _ _ L). lia.
  - rewrite L in H. lia.
  - pose proof (tri_le _ _ L). lia.
Qed.
Lemma cpair_ge i j : (i <= cpair i j /\ j <= cpair i j)%nat.
Proof.
  unfold cpair. split; [|lia]. assert (i + j <= (i + j) * (i + j + 1) / 2)%nat; [|lia]. set (s := (i + j)%nat). replace s with (s * 2 / 2)%nat at 1 by (apply Nat.div_mul; lia).
  apply Nat.div_le_mono; [lia|]. destruct s as [|s]; nia.
Qed.
Theorem C63_parts_independent : forall f : nat -> nat -> draw, exists t : tape, forall i j, split t i j = f i j.
Proof.
  intros f. exists (fun k => match find (fun p => Nat.eqb (cpair (fst p) (snd p)) k) (list_prod (seq 0 (k + 1)) (seq 0 (k + 1))) with Some p => f (fst p) (snd p) | None => f 0%nat 0%nat end).
  intros i j. unfold split. destruct (find _ _) as [[i' j']|] eqn:E.
  - apply find_some in E. destruct E as [_ E]. apply Nat.eqb_eq, cpair_inj in E. cbn in *. destruct E as [-> ->]. reflexivity.
  - exfalso. assert (In (i, j) (list_prod (seq 0 (cpair i j + 1)) (seq 0 (cpair i j + 1)))) as I by (apply in_prod; apply in_seq; pose proof (cpair_ge i j); lia).
    pose proof (find_none _ _ E (i, j) I) as N. cbn in N. rewrite Nat.eqb_refl in N. discriminate.
Qed.
Print Assumptions C63_parts_independent.

Lemma noise_level cx s g (b : Z) E i : (0 < c_n cx)%nat -> rgsw_encrypts (c_n cx) s g (pcst b) E ->
  g_base g = c_base cx -> (i < g_level g)%nat ->
  let G := gadget (c_base cx) (i + 1) in
  (forall k, (k < c_n cx)%nat -> nrm (phase (c_n cx) s (row1 g i) k - tof (mul_const (poly_mono (c_n cx) 0 1) G) k - (if (k =? 0)%nat then (b - 1) * G else 0)) <= E) /\
  get_nth_row g (i * 2 + 1) = Ok (row1 g i) /\ wfc (c_n cx) (row1 g i) /\ wfp (c_n cx) (mul_const (poly_mono (c_n cx) 0 1) G).
Proof.
  intros Hn Hg Hb Hi G. pose proof Hg as ((Hd & Hl & HF) & H). destruct (H i Hi) as [_ B].
  assert (length (poly_mono (c_n cx) 0 1) = c_n cx) as Lm by (unfold poly_mono; rewrite map_length, seq_length; reflexivity).
  split; [|split; [|split]].
  - intros k Hk. specialize (B k Hk). unfold psub in B. rewrite pmul_pcst_exact in B by assumption. rewrite Hb in B. fold G in B.
    replace (nrm _) with (nrm (phase (c_n cx) s (row1 g i) k - G * pcst b k)); [exact B|].
    assert (eqm (tof (mul_const (poly_mono (c_n cx) 0 1) G) k) (G * (if (k =? 0)%nat then 1 else 0))) as Et.
    { rewrite (tof_mul_const (c_n cx) _ _ Hn Lm k Hk), pmul_pcst_exact, tof_mono_nth by assumption. reflexivity. }
    unfold nrm. assert (eqm (phase (c_n cx) s (row1 g i) k - G * pcst b k) (phase (c_n cx) s (row1 g i) k - tof (mul_const (poly_mono (c_n cx) 0 1) G) k - (if (k =? 0)%nat then (b - 1) * G else 0))) as Eq.
    { rewrite Et. destruct k as [|k]; cbn [pcst Nat.eqb]; apply eq_eqm; ring. }
    unfold eqm in Eq. rewrite Eq. reflexivity.
  - replace (i * 2 + 1)%nat with (2 * i + 1)%nat by lia. apply nth_row_ok. lia.
  - rewrite Forall_forall in HF. apply HF. apply nth_In. lia.
  - apply wfp_mul_const. exact Lm.
Qed.

Lemma mapM_all {A B} (f : A -> res B) (Q : A -> B -> Prop) l : (forall x, In x l -> exists y, f x = Ok y /\ Q x y) ->
  exists ys, mapM f l = Ok ys /\ Forall2 Q l ys.
Proof.
  induction l as [|x l IH]; intros H; [exists []; split; [reflexivity|constructor]|].
  destruct (H x (or_introl eq_refl)) as (y & Ey & Hy). destruct IH as (ys & Eys & HF); [intros x' Hx'; apply H; right; exact Hx'|].
  exists (y :: ys). cbn [mapM]. rewrite Ey. cbn [bind]. rewrite Eys. split; [reflexivity|constructor; assumption].
Qed.

Lemma F2_length {A B} (R : A -> B -> Prop) l r : Forall2 R l r -> length l = length r.
Proof. intros H. induction H; cbn; congruence. Qed.

(** The noise report of an encryption of 1: one value per level, none above the noise .. *)
Theorem C63_noise_report : forall cx s g E, (0 < c_n cx)%nat -> rgsw_encrypts (c_n cx) s g (pcst 1) E ->
  g_base g = c_base cx -> g_level g = c_level cx -> E < 2 ^ 63 ->
  exists vs, compute_noise_rgsw1_levels cx s g = Ok vs /\ length vs = c_level cx /\ Forall (fun v => 0 <= v <= E) vs.
Proof.
  intros cx s g E Hn Hg Hb Hl HE. unfold compute_noise_rgsw1_levels.
  destruct (mapM_all (fun level => row <- get_nth_row g (level * 2 + 1) ;;
     compute_noise (c_mode cx) (c_n cx) s row (mul_const (poly_mono (c_n cx) 0 1) (gadget (c_base cx) (level + 1))))
     (fun _ v => 0 <= v <= E) (seq 0 (c_level cx))) as (vs & Ev & HF).
  - intros i Hi. apply in_seq in Hi. destruct (noise_level cx s g 1 E i Hn Hg Hb ltac:(lia)) as (Hk & Er & Wr & Wp).
    assert (forall k, (k < c_n cx)%nat -> nrm (phase (c_n cx) s (row1 g i) k - tof (mul_const (poly_mono (c_n cx) 0 1) (gadget (c_base cx) (i + 1))) k) <= E) as Hk'.
    { intros k Hlt. specialize (Hk k Hlt). destruct (k =? 0)%nat; replace ((1 - 1) * gadget (c_base cx) (i + 1)) with 0 in Hk by ring; rewrite Z.sub_0_r in Hk; exact Hk. }
    rewrite Er. cbn [bind].
    destruct (compute_noise_ok (c_n cx) Hn (c_mode cx) s (row1 g i) _ Wr Wp) as (v & Ev & V0 & _ & V2).
    { right. intros k Hlt. specialize (Hk' k Hlt). lia. }
    exists v. split; [exact Ev|]. split; [exact V0|]. destruct V2 as [-> | (k & Hlt & <-)]; [|apply Hk'; exact Hlt].
    specialize (Hk' 0%nat ltac:(lia)). pose proof (nrm_nonneg (phase (c_n cx) s (row1 g i) 0%nat - tof (mul_const (poly_mono (c_n cx) 0 1) (gadget (c_base cx) (i + 1))) 0%nat)). lia.
  - exists vs. split; [exact Ev|]. pose proof (F2_length _ _ _ HF) as L. rewrite seq_length in L. split; [congruence|].
    clear - HF. induction HF; constructor; assumption.
Qed.
Print Assumptions C63_noise_report.

(** .. but that of an encryption of 0 (as good as any other) is the gadget itself: the function measures
    the distance to 1, not the noise. *)
Theorem C63_noise_report_of_zero_refuted : forall cx s g E, (0 < c_n cx)%nat -> rgsw_encrypts (c_n cx) s g (pcst 0) E ->
  g_base g = c_base cx -> g_level g = c_level cx -> (2 <= c_base cx)%nat -> E < 2 ^ 62 ->
  exists vs, compute_noise_rgsw1_levels cx s g = Ok vs /\ length vs = c_level cx /\
    forall i v, nth_error vs i = Some v -> 2 ^ (64 - Z.of_nat (c_base cx * (i + 1))) - E <= v.
Proof.
  intros cx s g E Hn Hg Hb Hl Hb2 HE. unfold compute_noise_rgsw1_levels.
  pose proof Hg as ((Hd & _) & _). rewrite Hb, Hl in Hd. destruct Hd as (_ & _ & Hd).
  destruct (mapM_all (fun level => row <- get_nth_row g (level * 2 + 1) ;;
     compute_noise (c_mode cx) (c_n cx) s row (mul_const (poly_mono (c_n cx) 0 1) (gadget (c_base cx) (level + 1))))
     (fun i v => gadget (c_base cx) (i + 1) - E <= v) (seq 0 (c_level cx))) as (vs & Ev & HF).
  - intros i Hi. apply in_seq in Hi. destruct (noise_level cx s g 0 E i Hn Hg Hb ltac:(lia)) as (Hk & Er & Wr & Wp).
    set (G := gadget (c_base cx) (i + 1)) in *.
    assert (1 <= G <= 2 ^ 62) as HG.
    { unfold G, gadget. assert (2 <= c_base cx * (i + 1) < 64)%nat as Hx by (clear - Hb2 Hd Hi; nia).
      split; [|apply Z.pow_le_mono_r; lia]. change 1 with (2 ^ 0). apply Z.pow_le_mono_r; lia. }
    assert (nrm G = G) as HnG. { unfold nrm. assert (2 ^ 62 < q) by reflexivity. rewrite Z.mod_small by lia. assert (2 * 2 ^ 62 < q) by reflexivity. lia. }
    assert (forall k, (k < c_n cx)%nat -> nrm (phase (c_n cx) s (row1 g i) k - tof (mul_const (poly_mono (c_n cx) 0 1) G) k) <= E + (if (k =? 0)%nat then G else 0)) as Hk'.
    { intros k Hlt. specialize (Hk k Hlt). destruct (k =? 0)%nat; [|rewrite Z.sub_0_r in Hk; lia].
      set (x := phase (c_n cx) s (row1 g i) k - tof (mul_const (poly_mono (c_n cx) 0 1) G) k) in *.
      pose proof (nrm_add (x - (0 - 1) * G) ((0 - 1) * G)) as T. replace (x - (0 - 1) * G + (0 - 1) * G) with x in T by ring.
      replace ((0 - 1) * G) with (- G) in T, Hk by ring. rewrite nrm_opp, HnG in T. clear - T Hk. lia. }
    rewrite Er. cbn [bind]. assert (2 ^ 62 + 2 ^ 62 = 2 ^ 63) as E63 by reflexivity.
    assert (forall k, (k < c_n cx)%nat -> nrm (phase (c_n cx) s (row1 g i) k - tof (mul_const (poly_mono (c_n cx) 0 1) G) k) < 2 ^ 63) as Hlt63.
    { intros k Hlt. specialize (Hk' k Hlt). destruct (k =? 0)%nat; lia. }
    destruct (compute_noise_ok (c_n cx) Hn (c_mode cx) s (row1 g i) _ Wr Wp) as (v & Ev & V0 & V1 & _); [right; exact Hlt63|].
    exists v. split; [exact Ev|]. specialize (V1 0%nat Hn (Hlt63 0%nat Hn)). specialize (Hk 0%nat Hn). cbn [Nat.eqb] in Hk.
    set (x := phase (c_n cx) s (row1 g i) 0%nat - tof (mul_const (poly_mono (c_n cx) 0 1) G) 0%nat) in *.
    pose proof (nrm_sub x (x - (0 - 1) * G)) as T. replace (x - (x - (0 - 1) * G)) with (- G) in T by ring. rewrite nrm_opp, HnG in T. lia.
  - exists vs. split; [exact Ev|]. pose proof (F2_length _ _ _ HF) as L. rewrite seq_length in L. split; [congruence|].
    intros i v Hv. assert (i < c_level cx)%nat as Hi by (rewrite L; apply nth_error_Some; congruence).
    clear - HF Hv Hi. unfold gadget in HF.
    assert (forall l vs, Forall2 (fun i v => 2 ^ (64 - Z.of_nat (c_base cx * (i + 1))) - E <= v) l vs -> forall j a v, nth_error l j = Some a -> nth_error vs j = Some v -> 2 ^ (64 - Z.of_nat (c_base cx * (a + 1))) - E <= v) as Hgen.
    { intros l ws H. induction H as [|x y l ws Hxy H IH]; intros [|j] a u Ha Hu; cbn in Ha, Hu; try discriminate.
      - injection Ha as <-. injection Hu as <-. exact Hxy.
      - eapply IH; eassumption. }
    apply (Hgen _ _ HF i i v); [|exact Hv]. rewrite nth_error_nth' with (d := 0%nat) by (rewrite seq_length; exact Hi). rewrite seq_nth by exact Hi. reflexivity.
Qed.
Print Assumptions C63_noise_report_of_zero_refuted.

(** C64.  RLWE encryptions of m scaled by the gadget, and an RGSW encryption of -s, make an RGSW encryption
    of m. *)
Theorem C64_decomposed_to_rgsw : forall n fft eps cx s cs neg_s m N En S, (0 < n)%nat ->
  c_n cx = n -> decomp_ok (c_base cx) (c_level cx) ->
  rgsw_encrypts n s neg_s (popp (tof s)) En -> fft_ok n fft (2 ^ (Z.of_nat (g_base neg_s) - 1)) (2 * g_level neg_s) eps ->
  l1 n (tof s) S -> (c_level cx <= length cs)%nat ->
  (forall i c, (i < c_level cx)%nat -> nth_error cs i = Some c -> wfc n c /\
     near n (phase n s c) (pmul n (pcst (2 ^ (64 - Z.of_nat (c_base cx * (i + 1))))) m) N) ->
  exists g, decomposed_rlwe_to_rgsw fft cx cs neg_s = Ok g /\ g_base g = c_base cx /\ g_level g = c_level cx /\
    rgsw_encrypts n s g m ((1 + S) * N + ep_bound n (g_base neg_s) (g_level neg_s) S S En eps).
Proof.
  intros n fft eps cx s cs neg_s m N En S Hn Hcx Hd Hneg Hf HS Hlen Hcs.
  apply (decomposed_ok n Hn fft eps cx s cs neg_s m N En S); try assumption.
  intros i Hi. apply (Hcs i). exact Hi. apply nth_error_nth'. lia.
Qed.
Print Assumptions C64_decomposed_to_rgsw.

(** Too few ciphertexts are rejected; extra ones are ignored. *)
Theorem C64_too_few : forall fft cx cs neg_s, (length cs < c_level cx)%nat -> exists e, decomposed_rlwe_to_rgsw fft cx cs neg_s = Panic e.
Proof.
  intros fft cx cs neg_s H. destruct (decomposed_rlwe_to_rgsw fft cx cs neg_s) as [g|e] eqn:Eg; [|exists e; reflexivity]. exfalso.
  unfold decomposed_rlwe_to_rgsw in Eg. apply bind_ok in Eg as (rows & Eg & _).
  assert (In (2 * length cs)%nat (seq 0 (2 * c_level cx))) as Hin by (apply in_seq; lia).
  apply In_nth_error in Hin as (j & Hj). destruct (mapM_nth _ _ _ _ _ Eg Hj) as (y & Hy & _).
  apply bind_ok in Hy as (c & Hy & _). unfold index in Hy. replace (2 * length cs / 2)%nat with (length cs) in Hy by (rewrite Nat.mul_comm, Nat.div_mul; lia).
  destruct (nth_error cs (length cs)) eqn:En; [|discriminate]. assert (nth_error cs (length cs) <> None) as Hne by congruence. apply nth_error_Some in Hne. lia.
Qed.
Print Assumptions C64_too_few.
Theorem C64_extra_ignored : forall fft cx cs extra neg_s, (c_level cx <= length cs)%nat ->
  decomposed_rlwe_to_rgsw fft cx (cs ++ extra) neg_s = decomposed_rlwe_to_rgsw fft cx cs neg_s.
Proof.
  intros fft cx cs extra neg_s H. unfold decomposed_rlwe_to_rgsw. f_equal. apply mapM_ext. intros i Hi. apply in_seq in Hi.
  unfold index. rewrite nth_error_app1; [reflexivity|]. apply Nat.div_lt_upper_bound; lia.
Qed.
Print Assumptions C64_extra_ignored.

(** *** Non-trivial instances: ring dimension 4, base 5, 11 levels. *)
Example C63_applies :
  (exists r, get_last_row (demo_rgsw 1) = Ok r /\ near 4 (phase 4 demo_s r) (pmul 4 (pcst (2 ^ 9)) (pcst 1)) 3) /\
  get_nth_row (demo_rgsw 1) 22 = Panic PUnwrap /\ (exists r, get_nth_row (demo_rgsw 1) 21 = Ok r) /\
  (exists vs, compute_noise_rgsw1_levels demo_cx demo_s (demo_rgsw 1) = Ok vs /\ length vs = 11%nat /\ Forall (fun v => 0 <= v <= 3) vs) /\
  (exists vs, compute_noise_rgsw1_levels demo_cx demo_s (demo_rgsw 0) = Ok vs /\ length vs = 11%nat /\
     forall i v, nth_error vs i = Some v -> 2 ^ (64 - Z.of_nat (5 * (i + 1))) - 3 <= v) /\
  Forall2 (fun g m => rgsw_encrypts 4 demo_s g (pcst m) 3 /\ g_base g = 5%nat /\ g_level g = 11%nat) (encrypt_constant_rgsw_vec demo_cx demo_s [0; 1; 7] demo_tape) [0; 1; 7].
Proof.
  destruct (C63_rows 4 demo_s (demo_rgsw 1) (pcst 1) 3 (demo_rgsw_ok 1)) as (H1 & H2 & H3).
  split; [exact H2|]. split; [apply H3; cbn; lia|]. split; [destruct (H1 10%nat ltac:(cbn; lia)) as (_ & r & _ & Er & _); exists r; exact Er|].
  split; [apply (C63_noise_report demo_cx demo_s (demo_rgsw 1) 3); try reflexivity; [cbn; lia|apply demo_rgsw_ok]|].
  split; [apply (C63_noise_report_of_zero_refuted demo_cx demo_s (demo_rgsw 0) 3); try reflexivity; [cbn; lia|apply demo_rgsw_ok|cbn; lia]|].
  apply (C63_encrypt_vec demo_cx); [cbn; lia|apply demo_s_wf|apply demo_decomp|apply demo_tape_ok].
Qed.
(** The message rows of an RGSW ciphertext are such RLWE encryptions. *)
Example C64_applies : exists neg_s g, neg_gsw demo_cx demo_s demo_tape = Ok neg_s /\
  decomposed_rlwe_to_rgsw (exact_fft 4) demo_cx (map (row1 (demo_rgsw 1)) (seq 0 11)) neg_s = Ok g /\
  rgsw_encrypts 4 demo_s g (pcst 1) ((1 + 3) * 3 + ep_bound 4 5 11 3 3 3 0) /\
  exists e, decomposed_rlwe_to_rgsw (exact_fft 4) demo_cx (map (row1 (demo_rgsw 1)) (seq 0 10)) neg_s = Panic e.
Proof.
  destruct (C23_neg_gsw 4 ltac:(lia) demo_cx demo_s demo_tape 3) as (neg_s & En & Gb & Gl & Rg); try reflexivity; [apply demo_key|apply demo_decomp|apply demo_tape_ok|].
  pose proof (demo_rgsw_ok 1) as ((Hd & Hl & HF) & Hr).
  destruct (C64_decomposed_to_rgsw 4 (exact_fft 4) 0 demo_cx demo_s (map (row1 (demo_rgsw 1)) (seq 0 11)) neg_s (pcst 1) 3 3 3) as (g & Eg & _ & _ & Rg').
  - lia.
  - reflexivity.
  - apply demo_decomp.
  - exact Rg.
  - apply demo_fft.
  - apply demo_l1.
  - rewrite map_length, seq_length. cbn. lia.
  - intros i c Hi Hc. rewrite nth_error_map in Hc. destruct (nth_error (seq 0 11) i) as [j|] eqn:Ej; [|discriminate]. cbn [option_map] in Hc. injection Hc as <-.
    assert (j = i) as ->. { change (c_level demo_cx) with 11%nat in Hi. rewrite (nth_error_nth' _ 0%nat) in Ej by (rewrite seq_length; exact Hi). rewrite seq_nth in Ej by exact Hi. injection Ej as <-. reflexivity. }
    split; [rewrite Forall_forall in HF; apply HF; apply nth_In; rewrite Hl; change (c_level demo_cx) with (g_level (demo_rgsw 1)) in Hi; lia|]. apply Hr. exact Hi.
  - exists neg_s, g. split; [exact En|]. split; [exact Eg|]. rewrite Gb, Gl in Rg'. split; [exact Rg'|].
    apply C64_too_few. rewrite map_length, seq_length. cbn. lia.
Qed.

(** C23, keys that are not binary (concrete-core also makes ternary and gaussian keys): a release build encrypts the negated key just the same;
    a debug build does so exactly if every coefficient is 0 or 1, and panics otherwise. *)
Lemma neg_coeff md y : is_word y -> umul md y MAXW = (if (y <=? 1)%Z then Ok (wrap (y * MAXW)) else overflow md (y * MAXW)).
Proof.
  intros [H1 H2]. unfold umul, MAXW, wrap in *. unfold q in *. destruct (Z.leb_spec y 1).
  - assert (y = 0 \/ y = 1) as [-> | ->] by lia; reflexivity.
  - rewrite (proj2 (Z.ltb_ge _ _)) by nia. reflexivity.
Qed.
Theorem C23_any_key : forall n, (0 < n)%nat -> forall cx s t E,
  c_n cx = n -> wfp n s -> c_negs_base cx = c_base cx -> decomp_ok (c_base cx) (c_negs_level cx) -> tape_ok n E t ->
  (c_mode cx = Wrapping \/ binary_key n s -> exists g, neg_gsw cx s t = Ok g /\ g_base g = c_base cx /\ g_level g = c_negs_level cx /\ rgsw_encrypts n s g (popp (tof s)) E) /\
  (c_mode cx = Checked -> ~ binary_key n s -> neg_gsw cx s t = Panic POverflow).
Proof.
  intros n Hn cx s t E En Ws Eb Hd Ht. split.
  - intros Hm. pose proof Hd as (D1 & D2 & D3).
    assert (mapM (fun y => umul (c_mode cx) y MAXW) s = Ok (map (fun y => wrap (y * MAXW)) s)) as Em.
    { apply mapM_ok. intros x Hx. destruct Ws as [_ F]. rewrite Forall_forall in F. rewrite neg_coeff by (apply F; exact Hx). destruct (Z.leb_spec x 1) as [|Gt]; [reflexivity|].
      destruct Hm as [-> | [_ B]]; [reflexivity|]. rewrite Forall_forall in B. destruct (B x Hx); lia. }
    unfold neg_gsw. rewrite Em. cbn [bind]. rewrite Eb.
    assert (wfp n (map (fun y => wrap (y * MAXW)) s)) as We.
    { split; [rewrite map_length; apply Ws|]. apply Forall_forall. intros x Hx. apply in_map_iff in Hx as (y & <- & _). apply Z.mod_pos_bound. reflexivity. }
    destruct (encrypt_rgsw_ok n Hn cx s (c_base cx) (c_negs_level cx) _ t E En Ws We Hd Ht) as (g & Eg & Gb & Gl & Wg & Rg); [lia|lia|].
    exists g. split; [exact Eg|]. split; [exact Gb|]. split; [exact Gl|]. split; [exact Wg|]. rewrite Gb. eapply rows_near_peq; [|exact Rg].
    intros k Hk. unfold tof, popp. rewrite (nth_map_in _ _ _ 0) by (destruct Ws; lia). apply eqm_alt. exists (nth k s 0 - (nth k s 0 * MAXW) / q). unfold wrap, MAXW. rewrite Z.mod_eq by discriminate. ring.
  - intros Hm Hb. assert (mapM (fun y => umul (c_mode cx) y MAXW) s = Panic POverflow) as Em; [|unfold neg_gsw; rewrite Em; reflexivity].
    destruct Ws as [L F]. assert (~ Forall (fun x => x = 0 \/ x = 1) s) as Hb' by (intros B; apply Hb; split; assumption). clear - Hm F Hb'. rewrite Hm.
    induction s as [|x s IH]; [exfalso; apply Hb'; constructor|]. inversion F as [|? ? [Wx Wx'] F']; subst. cbn [mapM]. rewrite neg_coeff by (split; assumption).
    destruct (Z.leb_spec x 1); [|reflexivity]. cbn [bind]. rewrite IH; [reflexivity|exact F'|]. intros B. apply Hb'. constructor; [lia|exact B].
Qed.
Print Assumptions C23_any_key.
(** The demo context with the ternary key (1, -1, 0, 1). *)
Definition c23_key : poly := [1; MAXW; 0; 1].
Definition c23_release : ctx :=
  {| c_mode := Wrapping; c_n := c_n demo_cx; c_base := c_base demo_cx; c_level := c_level demo_cx; c_ks_base := c_ks_base demo_cx; c_ks_level := c_ks_level demo_cx;
     c_negs_base := c_negs_base demo_cx; c_negs_level := c_negs_level demo_cx; c_codec := c_codec demo_cx |}.
Example C23_ternary_key : neg_gsw demo_cx c23_key demo_tape = Panic POverflow /\
  exists g, neg_gsw c23_release c23_key demo_tape = Ok g /\ rgsw_encrypts 4 c23_key g (popp (tof c23_key)) 3.
Proof.
  assert (wfp 4 c23_key) as W by (split; [reflexivity|repeat constructor; vm_compute; congruence]). split.
  - apply (C23_any_key 4 ltac:(lia) demo_cx c23_key demo_tape 3); try reflexivity; [exact W|apply demo_decomp|apply demo_tape_ok|].
    intros [_ B]. inversion B as [|? ? _ B']; subst. inversion B' as [|? ? [H|H] _]; subst; vm_compute in H; discriminate.
  - destruct (C23_any_key 4 ltac:(lia) c23_release c23_key demo_tape 3) as [H _]; try reflexivity; [exact W|apply demo_decomp|apply demo_tape_ok|].
    destruct (H (or_introl eq_refl)) as (g & E & _ & _ & R). exists g. auto.
Qed.
