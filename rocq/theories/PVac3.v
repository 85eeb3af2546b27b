(** * More instances: chains of selections with the double-precision FFT, the comparison of test_fourier_mul, the encrypted tree at the default parameters, the parameter text. *)
From Coq Require Import String Permutation Reals Lra.
From Flocq Require Import Core IEEE754.BinarySingleNaN.
From Verif Require Import MBase MUtils MCodec MPoly MRlwe MTree MEncTree MParams MOram MFft MIeee MIeee2 MShow MTests MTests3.
From Verif Require Import SpecRing SpecLwe SpecEnc SpecTree SpecOram SpecText SpecFft SpecFft2 SpecDouble SpecIeee SpecIeee2 SpecTables SpecShow SpecOut.
From Verif Require Import PfPoly PfNear PfRlwe PfRlwe5 PfEnc PfEnc3 PfTables PfTests3 PfTests8 PolyRing LRlwe PRlwe PKeys PEnc POram PDefault PFft PIeee PClose PTests PTests3 PShow PVac.
Local Open Scope Z_scope.

Example C96_default_chain_applies : forall kd, exists cx c0 ct, context_new Checked default_tfhe = Ok cx /\
  encode_encrypt_rlwe cx (repeat 1 2048) (repeat 200 2048) (noisy 2048 7 0%nat) = Ok c0 /\
  mux_chain (ieee_fft_of kd (computed_tables rounded_sin_cos) one_by_one 2048) cx (repeat 1 2048) (noisy 2048) 0 c0 [(true, repeat 99 2048); (false, repeat 3 2048)] = Ok ct /\
  decrypt_decode_rlwe cx (repeat 1 2048) ct = Ok (chosen (repeat 200 2048) [(true, repeat 99 2048); (false, repeat 3 2048)]).
Proof.
  intros kd. destruct (C69_default_context Checked) as (cx & E & _). exists cx.
  destruct (C96_default_chain Checked cx kd (computed_tables rounded_sin_cos) one_by_one 17 (repeat 1 2048) (repeat 200 2048) (noisy 2048 7 0%nat) [(true, repeat 99 2048); (false, repeat 3 2048)] (noisy 2048))
    as (c0 & ct & H); [exact E|exact (computed_close 10 ltac:(lia))|lia|lia|intros ts; apply one_by_one_ok|apply ones_binary|apply flat_plaintext; lia|apply noisy_ok| |vm_compute; congruence|intros j; apply noisy_ok|].
  - repeat (apply Forall_cons || apply Forall_nil); cbn [snd]; apply flat_plaintext; lia.
  - exists c0, ct. auto.
Qed.
Example C98_shows_applies : Forall (fun ab => near 2048 (tof (low_fft 2048 [ab])) (pmul 2048 (tof (fst ab)) (tof (snd ab))) 36893496340) (flat_pairs 2048).
Proof.
  pose proof (flat_ok 2048 ltac:(lia)) as (W & B & Wb & Sb). apply C98_shows; [lia| |exact C98_applies].
  apply Forall_forall. intros ab Hab. unfold flat_pairs in Hab. apply repeat_spec in Hab. subst ab. cbn [fst snd]. split; [exact W|]. split; [exact Wb|]. apply low_precise; [lia|exact W|exact Wb|exact Sb].
Qed.
Example C91_not_applies : exists cx c, context_new Checked default_tfhe = Ok cx /\ codec_new Checked 2 = Ok c /\
  test_not (with_codec cx c) (repeat 1 2048) (noisy 2048 7 0%nat) = Ok tt /\ test_not_in_place (with_codec cx c) (repeat 1 2048) (noisy 2048 7 0%nat) = Ok tt.
Proof.
  destruct (C69_default_context Checked) as (cx & E & _). assert (exists c, codec_new Checked 2 = Ok c) as (c & Ec) by (eexists; vm_compute; reflexivity).
  exists cx, c. split; [exact E|]. split; [exact Ec|]. apply (C91_not_tests Checked); [exact E|exact Ec|apply noisy_ok].
Qed.
Example C83_context_applies : exists cx text, context_new Checked default_tfhe = Ok cx /\ context_text "-55.0" cx = Ok text /\
  shows_word (setting_of text "poly_size") 2048 /\ shows_pair (setting_of text "negs_decomp") 5 11 /\ shows_bracketed (setting_of text "pt_modulus") 256.
Proof.
  destruct (C69_default_context Checked) as (cx & E & _). destruct C83_default_meets as [S T].
  destruct (C83_context Checked default_tfhe cx "-55.0" S ltac:(discriminate) T E) as (text & H1 & _ & _ & H2 & _ & _ & _ & H3 & H4). exists cx, text. auto.
Qed.

(** The encrypted tree at the default parameters: ciphertexts of the decisions of features (1, 3). *)
Section Tree.
  Variables (n : nat) (s : poly) (t : tape) (E : Z).
  Hypotheses (Hn : (0 < n)%nat) (Hs : binary_key n s) (Ht : tape_ok n E t).
  Let ct (m : Z) : rgsw := encrypt_constant_rgsw n s 5 9 m t.
  Definition default_enc : enc_node rgsw :=
    EInternal (ct 1) (Some (EInternal (ct 0) (Some (ELeaf 5)) (Some (ELeaf 2)))) (Some (EInternal (ct 0) (Some (ELeaf 0)) (Some (ELeaf 0)))).
  Lemma default_const m : const_ct n s 5 9 E m (ct m).
  Proof. split; [|split; reflexivity]. apply encrypt_constant_rgsw_ok; [exact Hn|apply binary_key_wf, Hs|repeat split; lia|exact Ht]. Qed.
  Lemma default_matches : enc_matches default_enc c39_tree [ct 1; ct 0; ct 0].
  Proof.
    apply (EM_internal _ _ _ _ _ _ _ _ _ [ct 0] [ct 0]); apply EC_some.
    - apply (EM_internal _ _ _ _ _ _ _ _ _ [] []); apply EC_some, EM_leaf.
    - apply (EM_internal _ _ _ _ _ _ _ _ _ [] []); [apply EC_missing|apply EC_some, EM_leaf].
  Qed.
  Lemma default_decisions : Forall2 (decision_ct n s 5 9 E [1%nat; 3%nat]) [ct 1; ct 0; ct 0] (preorder c39_tree).
  Proof.
    constructor; [|constructor; [|constructor; [|constructor]]]; (split; [reflexivity|]).
    - exists 1%nat. split; [reflexivity|]. apply default_const.
    - exists 3%nat. split; [reflexivity|]. apply default_const.
    - exists 3%nat. split; [reflexivity|]. apply default_const.
  Qed.
End Tree.
Example C69_tree_applies : exists cx outs, context_new Checked default_tfhe = Ok cx /\
  enc_eval (exact_fft 2048) cx (default_enc 2048 (repeat 1 2048) (noisy 2048 0)) = Ok outs /\ decrypt_and_recompose cx (repeat 1 2048) outs = Ok 2.
Proof.
  destruct (C69_default_context Checked) as (cx & E & _ & N). exists cx.
  pose proof (default_matches 2048 (repeat 1 2048) (noisy 2048 0)) as Hm.
  pose proof (default_decisions 2048 (repeat 1 2048) (noisy 2048 0) default_noise ltac:(lia) (ones_binary 2048) (noisy_ok 2048 0)) as Hd.
  destruct (C69_default_tree Checked cx (exact_fft 2048) 0 (repeat 1 2048) [1%nat; 3%nat] c39_tree (default_enc 2048 (repeat 1 2048) (noisy 2048 0))
    (map (fun m => encrypt_constant_rgsw 2048 (repeat 1 2048) 5 9 m (noisy 2048 0)) [1; 0; 0])) as (x & outs & Hx & H1 & H2); [exact E| | |exact Hm|exact Hd| | | | |].
  - unfold fft_for. rewrite N. apply exact_fft_error; lia.
  - apply ones_binary.
  - repeat constructor.
  - exists 5%nat. split; [cbn; auto|discriminate].
  - lia.
  - cbn. lia.
  - exists outs. split; [exact E|]. split; [exact H1|]. rewrite H2. f_equal.
    repeat match goal with H : predicts _ _ _ |- _ => inversion H; clear H; subst; cbn in * end;
    repeat match goal with H : Some _ = Some _ |- _ => injection H as ?; subst end; try discriminate; try lia; reflexivity.
Qed.
