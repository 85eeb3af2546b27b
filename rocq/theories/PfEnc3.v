(** * Demultiplexing and index decomposition *)
From Coq Require Import Setoid Morphisms Ring.
From Verif Require Import MBase MUtils MCodec MPoly MRlwe MTree MEncTree SpecLwe SpecTree SpecEnc PolyRing PfPoly PfNear PfRlwe PfRlwe3 PfRlwe5 PfTree PfCodec LRlwe PfEnc PfEnc2.
Local Open Scope Z_scope.

Lemma Forall2_len {A B} (R : A -> B -> Prop) a b : Forall2 R a b -> length a = length b.
Proof. induction 1; cbn; congruence. Qed.

Section Dm.
Variable n : nat.
Hypothesis Hn : (0 < n)%nat.
Add Ring Pring : (P_ring n Hn) (setoid (peq_equiv n) (P_ext n)).
Variable fft : fftT.
Variables (base level : nat) (eps : Z).
Hypothesis Hfft : fft_ok n fft (2 ^ (Z.of_nat base - 1)) (2 * level) eps.
Variable s : poly.
Variable S E : Z.
Hypothesis HS : l1 n (tof s) S.
Notation EP := (ep_bound n base level S 1 E eps).

Lemma msb_value_lt bits : (msb_value bits < 2 ^ length bits)%nat.
Proof.
  clear. induction bits as [|b bits IH]; cbn [msb_value length]; [cbn; lia|].
  rewrite Nat.pow_succ_r'. destruct b; lia.
Qed.

Lemma demux_rec_ok : forall gs xs b, Forall2 (fun g x => const_ct n s base level E (b2z x) g) gs xs -> gs <> [] -> wfc n b ->
  exists outs, demux_rec fft n b gs = Ok outs /\ length outs = (2 ^ length gs)%nat /\ Forall (wfc n) outs /\
    forall j, (j < 2 ^ length gs)%nat ->
      near n (phase n s (nth j outs nilc)) (if (j =? msb_value (map negb xs))%nat then phase n s b else pzero)
           (Z.of_nat (length gs) * EP).
Proof.
  induction gs as [|g gs IH]; intros xs b HF Hne Wb; [congruence|].
  inversion HF as [|? x ? xs' Hg HF']; subst. clear Hne.
  destruct (split_step n Hn fft base level eps Hfft s S E HS g b x Hg Wb) as (Wl & Wr & Nl & Nr).
  cbn [demux_rec]. cbv zeta. set (left := external_product fft g (rlwe_allocate n) b) in *. set (right := rlwe_sub b left) in *.
  pose proof (near_nonneg n Hn _ _ _ Nl) as HEP.
  destruct gs as [|g' gs].
  - inversion HF'; subst. exists [left; right]. split; [reflexivity|]. split; [reflexivity|].
    split; [constructor; [exact Wl|constructor; [exact Wr|constructor]]|]. intros j Hj. cbn [length map msb_value] in *. change (Z.of_nat 1) with 1. rewrite Z.mul_1_l.
    change (2 ^ 1)%nat with 2%nat in Hj. change (2 ^ 0)%nat with 1%nat.
    destruct j as [|[|j]]; [| |lia]; cbn [nth]; destruct x; cbn [negb Nat.add Nat.eqb]; assumption.
  - destruct (IH xs' left HF' ltac:(discriminate) Wl) as (lo & El & Ll & Fl & Vl).
    destruct (IH xs' right HF' ltac:(discriminate) Wr) as (ro & Er & Lr & Fr & Vr).
    rewrite El, Er. cbn [bind].
    set (m := length (g' :: gs)) in *. change (length (g :: g' :: gs)) with (Datatypes.S m).
    exists (lo ++ ro). split; [reflexivity|]. split; [rewrite app_length, Ll, Lr, Nat.pow_succ_r'; lia|].
    split; [apply Forall_app; split; assumption|].
    assert (length (map negb xs') = m) as Lx by (rewrite map_length; symmetry; apply (Forall2_len _ _ _ HF')).
    pose proof (msb_value_lt (map negb xs')) as Hlt. rewrite Lx in Hlt.
    intros j Hj. rewrite Nat.pow_succ_r' in Hj. cbn [map msb_value]. rewrite Lx.
    replace (Z.of_nat (Datatypes.S m) * EP) with (Z.of_nat m * EP + EP) by (rewrite Nat2Z.inj_succ; ring).
    assert (forall f g h, near n f g (Z.of_nat m * EP) -> near n g h EP -> near n f h (Z.of_nat m * EP + EP)) as T
      by (intros; eapply near_trans; eassumption).
    destruct (Nat.lt_ge_cases j (2 ^ m)) as [Hjl|Hjr].
    + rewrite app_nth1 by lia. eapply T; [apply Vl; exact Hjl|].
      destruct x; cbn [negb].
      * rewrite Nat.add_0_l. destruct (j =? _)%nat; [exact Nl|]. apply near_eq; [exact HEP|reflexivity].
      * destruct (Nat.eqb_spec j (2 ^ m + msb_value (map negb xs'))); [lia|].
        destruct (j =? _)%nat; [exact Nl|]. apply near_eq; [exact HEP|reflexivity].
    + rewrite app_nth2 by lia. rewrite Ll. eapply T; [apply Vr; lia|].
      destruct x; cbn [negb].
      * rewrite Nat.add_0_l. destruct (Nat.eqb_spec j (msb_value (map negb xs'))); [lia|].
        destruct (_ =? _)%nat; [exact Nr|]. apply near_eq; [exact HEP|reflexivity].
      * assert ((j - 2 ^ m =? msb_value (map negb xs')) = (j =? 2 ^ m + msb_value (map negb xs')))%nat as ->.
        { destruct (Nat.eqb_spec (j - 2 ^ m) (msb_value (map negb xs'))); destruct (Nat.eqb_spec j (2 ^ m + msb_value (map negb xs'))); lia. }
        destruct (j =? _)%nat; [exact Nr|]. apply near_eq; [exact HEP|reflexivity].
Qed.
End Dm.

(** ** Index decomposition *)
Lemma msb_value_app l b : msb_value (l ++ [b]) = (2 * msb_value l + Nat.b2n b)%nat.
Proof.
  induction l as [|a l IH]; cbn [app msb_value length]; [destruct b; reflexivity|].
  rewrite IH, app_length. cbn [length]. rewrite Nat.add_1_r, Nat.pow_succ_r'. destruct a; lia.
Qed.
Lemma msb_rev l : Z.of_nat (msb_value (rev l)) = bits_value l.
Proof.
  induction l as [|b l IH]; [reflexivity|]. cbn [rev bits_value]. rewrite msb_value_app, Nat2Z.inj_add, Nat2Z.inj_mul, IH.
  destruct b; cbn [Nat.b2n]; lia.
Qed.
Lemma firstn_bits64 k i : (k <= 64)%nat -> firstn k (bits64 i) = map (Nat.testbit i) (seq 0 k).
Proof.
  intros Hk. unfold bits64. rewrite firstn_map. f_equal.
  replace 64%nat with (k + (64 - k))%nat by lia. rewrite seq_app, firstn_app, seq_length, Nat.sub_diag, firstn_O, app_nil_r.
  rewrite <- (seq_length k 0) at 1. apply firstn_all.
Qed.
Lemma msb_index k i : (k <= 64)%nat -> msb_value (rev (firstn k (bits64 i))) = (i mod 2 ^ k)%nat.
Proof.
  intros Hk. apply Nat2Z.inj. rewrite msb_rev, firstn_bits64 by exact Hk. rewrite bits_value_testbit.
  rewrite Nat.pow_0_r, Nat.div_1_r. reflexivity.
Qed.
Lemma ulog2_nat md m : (0 < m)%nat -> Z.of_nat m < q -> ulog2 md (Z.of_nat m) = Ok (Z.of_nat (Nat.log2 m)).
Proof.
  intros Hm Hq. assert (Z.log2 (Z.of_nat m) = Z.of_nat (Nat.log2 m)) as L.
  { apply Z.log2_unique; [lia|]. pose proof (Nat.log2_spec m Hm) as [A B]. apply inj_le in A. apply inj_lt in B.
    rewrite Nat2Z.inj_pow in A, B. rewrite (Nat2Z.inj_succ (Nat.log2 m)) in B. split; [exact A|exact B]. }
  assert (Z.log2 (Z.of_nat m) < 64) by (apply Z.log2_lt_pow2; [lia|exact Hq]).
  pose proof (Z.log2_nonneg (Z.of_nat m)).
  unfold ulog2, leading_zeros. destruct (Z.eqb_spec (Z.of_nat m) 0); [lia|].
  unfold usub at 1. destruct (Z.leb_spec (63 - Z.log2 (Z.of_nat m)) 64); [|lia]. cbn [bind].
  unfold usub. destruct (Z.leb_spec 1 (64 - (63 - Z.log2 (Z.of_nat m)))); [|lia]. f_equal. lia.
Qed.
Lemma ulog2_0_fails cx s i t : exists p, bit_decomposed_rgsw cx s i 0 t = Panic p.
Proof. unfold bit_decomposed_rgsw, ulog2. cbn. destruct (c_mode cx); cbn; eauto. Qed.

Lemma Forall2_map_combine {A B C} (f : nat * A -> B) (R : B -> C -> Prop) (h : A -> C) l : forall a,
  (forall j x, R (f (j, x)) (h x)) -> Forall2 R (map f (combine (seq a (length l)) l)) (map h l).
Proof. induction l as [|x l IH]; intros a H; cbn; constructor; auto. Qed.

Lemma bit_decomposed_ok cx s i m t E : (0 < c_n cx)%nat -> (0 < m)%nat -> Z.of_nat m < q ->
  wfp (c_n cx) s -> decomp_ok (c_base cx) (c_level cx) -> tape_ok (c_n cx) E t ->
  exists gs xs, bit_decomposed_rgsw cx s i m t = Ok gs /\ length gs = Nat.log2 m /\
    Forall2 (fun g x => const_ct (c_n cx) s (c_base cx) (c_level cx) E (b2z x) g) gs xs /\
    msb_value (map negb xs) = (i mod 2 ^ Nat.log2 m)%nat.
Proof.
  intros Hn Hm Hq Ws Hd Ht. unfold bit_decomposed_rgsw. rewrite ulog2_nat by assumption. cbn [bind].
  assert (Nat.log2 m <= 63)%nat as HL.
  { destruct (Nat.le_gt_cases (Nat.log2 m) 63) as [H|H]; [exact H|exfalso].
    pose proof (Nat.log2_spec m Hm) as [A _]. apply inj_le in A. rewrite Nat2Z.inj_pow in A. change (Z.of_nat 2) with 2 in A.
    assert (2 ^ 64 <= 2 ^ Z.of_nat (Nat.log2 m)) by (apply Z.pow_le_mono_r; lia). unfold q in Hq. lia. }
  destruct (Z.leb_spec (Z.of_nat (Nat.log2 m)) 64); [|lia]. cbn [bind]. rewrite Nat2Z.id.
  set (ib := rev (firstn (Nat.log2 m) (bits64 i))).
  assert (length ib = Nat.log2 m) as Lib.
  { unfold ib. rewrite rev_length, firstn_bits64 by lia. now rewrite map_length, seq_length. }
  eexists; exists (map negb ib). split; [reflexivity|]. split; [|split].
  - rewrite map_length, combine_length, seq_length, Nat.min_id. exact Lib.
  - apply Forall2_map_combine. intros j x. cbn [fst snd].
    replace (if x then 0 else 1) with (b2z (negb x)) by (destruct x; reflexivity).
    split; [|split; reflexivity]. apply encrypt_constant_rgsw_ok; auto. apply tape_split. exact Ht.
  - rewrite map_map. rewrite (map_ext _ (fun x => x)) by apply negb_involutive. rewrite map_id. unfold ib. apply msb_index. lia.
Qed.
