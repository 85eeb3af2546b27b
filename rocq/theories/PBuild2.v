(** * Property C99, continued: the functions not reached from the ORAM setup, the protocols or the program. *)
From Verif Require Import MBase MUtils MCodec MPoly MRlwe MLwe MHash MTree MEncTree MParams MSched MOram.
From Verif Require Import SpecBuild PfBuild PfBuild2.
Local Open Scope Z_scope.

Theorem C99_others :
  (forall x, agree (ternary_encode Checked x) (ternary_encode Wrapping x)) /\
  (forall cx s pt d, agree (ternary_encrypt_rlwe (build Checked cx) s pt d) (ternary_encrypt_rlwe (build Wrapping cx) s pt d)) /\
  (forall cx s pt d, agree (encode_encrypt_lwe (build Checked cx) s pt d) (encode_encrypt_lwe (build Wrapping cx) s pt d)) /\
  (forall cx s c, agree (decode_decrypt_lwe (build Checked cx) s c) (decode_decrypt_lwe (build Wrapping cx) s c)) /\
  (forall n s c pt, agree (compute_noise_ternary Checked n s c pt) (compute_noise_ternary Wrapping n s c pt)) /\
  (forall cx s c pt, agree (compute_noise_encoded (build Checked cx) s c pt) (compute_noise_encoded (build Wrapping cx) s c pt)) /\
  (forall cx s g, agree (compute_noise_rgsw1_levels (build Checked cx) s g) (compute_noise_rgsw1_levels (build Wrapping cx) s g)) /\
  (forall cx s bit tern t, agree (make_decomposed_rlwe_ct (build Checked cx) s bit tern t) (make_decomposed_rlwe_ct (build Wrapping cx) s bit tern t) /\
     agree (make_decomposed_rlwe_ct2 (build Checked cx) s bit tern t) (make_decomposed_rlwe_ct2 (build Wrapping cx) s bit tern t)) /\
  (forall sv sk, agree (decrypt_db (server_in Checked sv) sk) (decrypt_db (server_in Wrapping sv) sk)) /\
  (forall fft cx s model cf, agree (check_prediction (build Checked cx) s model cf) (check_prediction (build Wrapping cx) s model cf) /\
     forall g m ct, agree (server_f fft (build Checked cx) model g m ct) (server_f fft (build Wrapping cx) model g m ct)) /\
  (forall cx s vs t, agree (encrypt_feature_vector (build Checked cx) s vs t) (encrypt_feature_vector (build Wrapping cx) s vs t)).
Proof.
  repeat split; intros; apply rel_agree;
    first [solve [eauto with build]|apply decrypt_db_rel
          |unfold make_decomposed_rlwe_ct, make_decomposed_rlwe_ct2, make_decomposed_gen, compute_noise_rgsw1_levels, ternary_encrypt_rlwe, encode_encrypt_lwe, decode_decrypt_lwe, compute_noise_ternary; ctx; solve [go]].
Qed.
Print Assumptions C99_others.

(** The overflow is real for [make_decomposed_rlwe_ct2] (C28): at level 13 of base 5 a debug build stops, a release build goes on. *)
Example C99_decomposed_differ : forall s t,
  let cx := {| c_mode := Checked; c_n := 1; c_base := 5; c_level := 13; c_ks_base := 5; c_ks_level := 11; c_negs_base := 5; c_negs_level := 11; c_codec := {| cd_base_log := 1; cd_delta := 2 ^ 63 |} |} in
  make_decomposed_rlwe_ct2 (build Checked cx) s 1 (fun _ => [0]) t = Panic POverflow /\
  exists cs, make_decomposed_rlwe_ct2 (build Wrapping cx) s 1 (fun _ => [0]) t = Ok cs.
Proof. intros s t cx. split; [reflexivity|eexists; reflexivity]. Qed.
