(** * More instances: theorems whose hypotheses are many, applied to concrete cases. *)
From Coq Require Import Permutation Reals Lra.
From Flocq Require Import Core IEEE754.BinarySingleNaN.
From Verif Require Import MBase MUtils MCodec MPoly MRlwe MHash MTree MEncTree MParams MSched MOram MFft MIeee MIeee2 MTests.
From Verif Require Import SpecRing SpecLwe SpecEnc SpecTree SpecOram SpecFft SpecFft2 SpecNoise SpecDouble SpecIeee SpecIeee2 SpecTables.
From Verif Require Import PfPoly PfNear PfTables PfTests3 PolyRing LRlwe LOram PRlwe PKeys PEnc POram PDefault PFft PNoise PIeee PClose PTests.
Local Open Scope Z_scope.

Lemma flat_tof n y i : (i < n)%nat -> tof (repeat y n) i = y.
Proof. intros Hi. unfold tof. rewrite (nth_indep _ 0 y) by (rewrite repeat_length; exact Hi). apply nth_repeat. Qed.
Lemma flat_largest n y z : (0 < n)%nat -> largest n (padd (tof (repeat y n)) (tof (repeat z n))) (nrm (y + z)) /\ largest n (tof (repeat y n)) (nrm y).
Proof.
  intros Hn. split; (split; [intros i Hi|exists 0%nat; split; [exact Hn|]]); unfold padd; rewrite ?flat_tof by assumption; lia.
Qed.

(** [test_compute_noise] with noises 3 and 2. *)
Example C91_compute_noise_applies : exists cx, context_new Checked default_tfhe = Ok cx /\
  test_compute_noise cx (-55) (repeat 1 2048) (repeat 7 2048) (flat_draw 2048 5 3) (flat_draw 2048 6 2) = Ok tt.
Proof.
  destruct (C69_default_context Checked) as (cx & E & _). exists cx. split; [exact E|].
  destruct (flat_largest 2048 3 2 ltac:(lia)) as [L1 L2].
  apply (C91_compute_noise_test Checked cx _ _ _ _ (nrm 3) (nrm (3 + 2)) E); [apply flat_plaintext; lia| | |exact L2|exact L1|].
  - apply flat_draw_ok; [split; [lia|reflexivity]|split; [lia|reflexivity]|vm_compute; congruence].
  - apply flat_draw_ok; [split; [lia|reflexivity]|split; [lia|reflexivity]|vm_compute; congruence].
  - vm_compute. split; reflexivity.
Qed.

Lemma computed_close m : (m <= 40)%nat -> close_tables (computed_tables rounded_sin_cos) (2 * 2 ^ m) (INR 17 * / 2 ^ 53).
Proof. intros H. apply C96_computed; [apply rounded_sin_cos_ok|lia]. Qed.
Lemma computed_32 : close_tables (computed_tables rounded_sin_cos) 32 (INR 32 * / 2 ^ 53).
Proof.
  apply (close_mono _ _ (INR 17 * / 2 ^ 53)); [exact (computed_close 4 ltac:(lia))|]. apply Rmult_le_compat_r; [pose proof u_pos; lra|apply le_INR; lia].
Qed.

(** The double-precision FFT with computed tables, at the default parameters, and an ORAM session on it. *)
Example C96_default_applies : forall kd, exists cx, context_new Checked default_tfhe = Ok cx /\
  fft_for cx (ieee_fft_of kd (computed_tables rounded_sin_cos) one_by_one 2048) (table_error 10 16 22 17).
Proof.
  intros kd. destruct (C69_default_context Checked) as (cx & E & _). exists cx. split; [exact E|].
  apply (C96_default Checked); [exact E|exact (computed_close 10 ltac:(lia))|lia|lia|intros ts; apply one_by_one_ok].
Qed.
Section Oram.
  Let gp := fun i => repeat (Z.of_nat (i mod 2)) 32.
  Let rqs := [Write 3 (repeat 1 32); Read 3; Read 1].
  Let dm : nat -> nat -> list Z := fun _ _ => repeat 0 32.
  Lemma oram_case : exists nh, nh_new (fun l => rev l) 2 4 = Ok nh /\ hash_for nh 2 4.
  Proof. eexists. split; [reflexivity|]. exists (@rev nat). split; [intros l; symmetry; apply Permutation_rev|reflexivity]. Qed.
  Lemma oram_requests cx : c_n cx = 32%nat -> Forall (request_ok cx 1 4) rqs.
  Proof. intros En. repeat (apply Forall_cons || apply Forall_nil); unfold request_ok; (split; [cbn; lia|]); try exact I; rewrite En; apply flat_plaintext; lia. Qed.
  Example C96_oram_applies : forall kd, exists cx nh cl sv pts ys sv', context_new Checked double_tfhe = Ok cx /\ nh_new (fun l => rev l) 2 4 = Ok nh /\
    setup_random_oram 1 (2 ^ 3) nh cx (repeat 1 32) gp (noisy 32 0) = Ok (cl, sv, pts) /\
    session true (ieee_fft_of kd (computed_tables rounded_sin_cos) one_by_one 32) cl nh dm (noisy 32) 0 sv rqs = Ok (ys, sv') /\
    Forall2 (fun y pt => decrypt_decode_rlwe cx (repeat 1 32) y = Ok pt) ys (answers (fun i => nth i pts []) rqs).
  Proof.
    intros kd. destruct (double_context Checked) as (cx & E & _ & En & _). destruct oram_case as (nh & Enh & Hh). exists cx, nh.
    destruct (C96_oram Checked cx true kd (computed_tables rounded_sin_cos) one_by_one (repeat 1 32) 3 nh 2 4 gp (noisy 32 0) rqs dm (noisy 32)) as (cl & sv & pts & ys & sv' & H);
      [exact E|exact computed_32|intros ts; apply one_by_one_ok|apply ones_binary|lia|exact Hh|reflexivity| |apply noisy_ok|apply oram_requests, En| |intros j; apply noisy_ok|cbn; lia|].
    - intros i. apply flat_plaintext. pose proof (Nat.mod_upper_bound i 2). lia.
    - intros j. apply flat_plaintext. lia.
    - exists cl, sv, pts, ys, sv'. auto.
  Qed.
  Example C92_oram_applies : exists cx nh cl sv pts ys sv', context_new Checked double_tfhe = Ok cx /\ nh_new (fun l => rev l) 2 4 = Ok nh /\
    setup_random_oram 1 (2 ^ 3) nh cx (repeat 1 32) gp (noisy 32 0) = Ok (cl, sv, pts) /\
    session true (ieee_fft ideal_tables one_by_one 32) cl nh dm (noisy 32) 0 sv rqs = Ok (ys, sv') /\
    Forall2 (fun y pt => decrypt_decode_rlwe cx (repeat 1 32) y = Ok pt) ys (answers (fun i => nth i pts []) rqs).
  Proof.
    destruct (double_context Checked) as (cx & E & _ & En & _). destruct oram_case as (nh & Enh & Hh). exists cx, nh.
    destruct (C92_oram Checked cx true ideal_tables one_by_one (repeat 1 32) 3 nh 2 4 gp (noisy 32 0) rqs dm (noisy 32)) as (cl & sv & pts & ys & sv' & H);
      [exact E|apply ideal_rounded; lia|intros ts; apply one_by_one_ok|apply ones_binary|lia|exact Hh|reflexivity| |apply noisy_ok|apply oram_requests, En| |intros j; apply noisy_ok|cbn; lia|].
    - intros i. apply flat_plaintext. pose proof (Nat.mod_upper_bound i 2). lia.
    - intros j. apply flat_plaintext. lia.
    - exists cl, sv, pts, ys, sv'. auto.
  Qed.
  Example C85_oram_applies : exists cx nh t cl sv pts ys sv', context_new Checked double_tfhe = Ok cx /\ nh_new (fun l => rev l) 2 4 = Ok nh /\
    setup_random_oram 1 (2 ^ 3) nh cx (repeat 1 32) gp t = Ok (cl, sv, pts) /\
    session true (float_fft (machine binary64) one_by_one 32) cl nh dm (fun _ => t) 0 sv rqs = Ok (ys, sv') /\
    Forall2 (fun y pt => decrypt_decode_rlwe cx (repeat 1 32) y = Ok pt) ys (answers (fun i => nth i pts []) rqs).
  Proof.
    destruct (double_context Checked) as (cx & E & _ & En & _). destruct oram_case as (nh & Enh & Hh). destruct (some_tape 32) as (t & Ht). exists cx, nh, t.
    destruct (C85_oram Checked cx true binary64 lossy_ln one_by_one (repeat 1 32) 3 nh 2 4 gp t rqs dm (fun _ => t)) as (cl & sv & pts & ys & sv' & H);
      [exact E|exact PfDouble.binary64_rounding|exact double_noise|intros ts; apply one_by_one_ok|apply ones_binary|lia|exact Hh|reflexivity| |exact Ht|apply oram_requests, En| |intros j; exact Ht|cbn; lia|].
    - intros i. apply flat_plaintext. pose proof (Nat.mod_upper_bound i 2). lia.
    - intros j. apply flat_plaintext. lia.
    - exists cl, sv, pts, ys, sv'. auto.
  Qed.
End Oram.
