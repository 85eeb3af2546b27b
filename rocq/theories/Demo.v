(** * A concrete instance used by the non-vacuity examples

    Ring dimension 4, key 1 + X^2 + X^3, non-zero masks, noise up to 3, library default gadget (base
    2^5, 11 levels), plaintext modulus 2. *)
From Verif Require Import MBase MUtils MCodec MPoly MRlwe SpecLwe PfNear.
Local Open Scope Z_scope.

Definition demo_n : nat := 4.
Definition demo_s : poly := [1; 0; 1; 1].
Definition demo_cx : ctx :=
  {| c_mode := Checked; c_n := 4; c_base := 5; c_level := 11; c_ks_base := 5; c_ks_level := 11;
     c_negs_base := 5; c_negs_level := 11; c_codec := {| cd_base_log := 1; cd_delta := 2 ^ 63 |} |}.
Definition demo_draw (i : nat) : draw :=
  {| d_mask := [wrap (Z.of_nat i * 7 + 2 ^ 61); 5; wrap (-3 - Z.of_nat i); 2 ^ 63 + 1]; d_noise := [2; wrap (-3); 0; 1] |}.
Definition demo_tape : tape := demo_draw.

Ltac conc := repeat (first [apply Forall_nil | apply Forall_cons | split]); try (vm_compute; congruence); try (vm_compute; reflexivity).

Lemma demo_n_pos : (0 < 4)%nat. Proof. lia. Qed.
Lemma demo_key : binary_key 4 demo_s. Proof. split; [reflexivity|]. unfold demo_s. auto 10. Qed.
Lemma demo_s_wf : wfp 4 demo_s. Proof. split; [reflexivity|]. unfold demo_s. repeat apply Forall_cons; try apply Forall_nil; split; vm_compute; congruence. Qed.
Lemma demo_l1 : l1 4 (tof demo_s) 3. Proof. vm_compute. congruence. Qed.
Lemma word_wrap x : is_word (wrap x). Proof. apply wrap_word. Qed.
Lemma demo_draw_wf i : wfp 4 (d_mask (demo_draw i)) /\ wfp 4 (d_noise (demo_draw i)).
Proof. unfold demo_draw. cbn [d_mask d_noise]. split; split; try reflexivity; repeat apply Forall_cons; try apply Forall_nil; try apply wrap_word; split; vm_compute; congruence. Qed.
Lemma demo_draw_ok i : draw_ok 4 3 (demo_draw i).
Proof.
  destruct (demo_draw_wf i) as [Hm He]. split; [exact Hm|]. split; [exact He|].
  intros [|[|[|[|k]]]] Hk; try lia; vm_compute; congruence.
Qed.
Lemma demo_tape_ok : tape_ok 4 3 demo_tape. Proof. intros i. apply demo_draw_ok. Qed.
Lemma demo_decomp : decomp_ok 5 11. Proof. repeat split; lia. Qed.
Lemma demo_codec : codec_new (c_mode demo_cx) (2 ^ 1) = Ok (c_codec demo_cx). Proof. reflexivity. Qed.
Lemma demo_fft D L : fft_ok 4 (exact_fft 4) D L 0. Proof. apply exact_fft_ok; lia. Qed.
Definition demo_ct (pt : poly) (i : nat) : rlwe := encrypt_rlwe 4 demo_s (map (fun x => x * 2 ^ 63) pt) (demo_draw i).
