(** * Proofs of C99: what depends on the build. *)
From Coq Require Import String.
From Verif Require Import MBase MUtils MCodec MPoly MRlwe MLwe MHash MTree MEncTree MParams MSched MOram MMain MOut.
From Verif Require Import SpecBuild.
Local Open Scope nat_scope.

(** Related outcomes. *)
Definition rel {A B} (R : A -> B -> Prop) (x : res A) (y : res B) : Prop :=
  x = Panic POverflow \/ (exists a b, x = Ok a /\ y = Ok b /\ R a b) \/ exists e, x = Panic e /\ y = Panic e.
Lemma rel_agree {A} (x y : res A) : rel eq x y <-> agree x y.
Proof.
  split; [intros [H|[(a & b & -> & -> & <-)|(e & -> & ->)]]; [left; exact H|right; reflexivity|right; reflexivity]|].
  intros [H| ->]; [left; exact H|]. right. destruct x; [left; eauto|right; eauto].
Qed.
Lemma rel_ok {A B} (R : A -> B -> Prop) a b : R a b -> rel R (Ok a) (Ok b). Proof. intros H. right. left. eauto. Qed.
Lemma rel_panic {A B} (R : A -> B -> Prop) e : rel R (Panic e) (Panic e). Proof. right. right. eauto. Qed.
Lemma rel_refl {A} (x : res A) : rel eq x x. Proof. destruct x; [apply rel_ok; reflexivity|apply rel_panic]. Qed.
Lemma rel_over {A B} (R : A -> B -> Prop) y : rel R (Panic POverflow) y. Proof. left. reflexivity. Qed.
Lemma rel_bind {A B C D} (R : A -> B -> Prop) (Q : C -> D -> Prop) x y f g : rel R x y -> (forall a b, R a b -> rel Q (f a) (g b)) -> rel Q (bind x f) (bind y g).
Proof. intros [->|[(a & b & -> & -> & H)|(e & -> & ->)]] Hf; cbn; [apply rel_over|apply Hf, H|apply rel_panic]. Qed.
Lemma rel_bind_eq {A C D} (Q : C -> D -> Prop) (x y : res A) f g : rel eq x y -> (forall a, rel Q (f a) (g a)) -> rel Q (bind x f) (bind y g).
Proof. intros H Hf. apply (rel_bind eq); [exact H|]. intros a b <-. apply Hf. Qed.
Lemma rel_mapM {A B} (f g : A -> res B) l : (forall x, rel eq (f x) (g x)) -> rel eq (mapM f l) (mapM g l).
Proof. intros H. induction l; cbn; [apply rel_refl|]. apply rel_bind_eq; [apply H|]. intros y. apply rel_bind_eq; [exact IHl|]. intros ys. apply rel_refl. Qed.
Lemma rel_mapiM {A B} (f g : nat -> A -> res B) l : (forall i x, rel eq (f i x) (g i x)) -> forall i, rel eq (mapiM f i l) (mapiM g i l).
Proof. intros H. induction l; intros i; cbn; [apply rel_refl|]. apply rel_bind_eq; [apply H|]. intros y. apply rel_bind_eq; [apply IHl|]. intros ys. apply rel_refl. Qed.
Lemma rel_foldM {A S} (f g : S -> A -> res S) l : (forall s x, rel eq (f s x) (g s x)) -> forall s, rel eq (foldM f l s) (foldM g l s).
Proof. intros H. induction l; intros s; cbn; [apply rel_refl|]. apply rel_bind_eq; [apply H|]. intros s'. apply IHl. Qed.

(** Arithmetic. *)
Ltac arith := repeat match goal with |- rel _ (if ?b then _ else _) (if ?b then _ else _) => destruct b end; first [apply rel_refl|apply rel_over].
Lemma uadd_rel a b : rel eq (uadd Checked a b) (uadd Wrapping a b). Proof. unfold uadd. arith. Qed.
Lemma usub_rel a b : rel eq (usub Checked a b) (usub Wrapping a b). Proof. unfold usub. arith. Qed.
Lemma umul_rel a b : rel eq (umul Checked a b) (umul Wrapping a b). Proof. unfold umul. arith. Qed.
Lemma ushl_rel a b : rel eq (ushl Checked a b) (ushl Wrapping a b). Proof. unfold ushl. arith. Qed.
Lemma ushr_rel a b : rel eq (ushr Checked a b) (ushr Wrapping a b). Proof. unfold ushr. arith. Qed.
Lemma iabs_rel x : rel eq (iabs Checked x) (iabs Wrapping x). Proof. unfold iabs. cbv zeta. arith. Qed.
Create HintDb build.
#[export] Hint Resolve uadd_rel usub_rel umul_rel ushl_rel ushr_rel iabs_rel : build.
Ltac go := repeat first
  [ apply rel_refl | solve [eauto with build]
  | apply rel_bind_eq; [|intros] | apply rel_mapM; intros | apply rel_mapiM; intros | apply rel_foldM; intros
  | match goal with |- rel _ (if ?b then _ else _) (if ?b then _ else _) => destruct b end
  | match goal with |- rel _ (match ?b with _ => _ end) (match ?b with _ => _ end) => destruct b end
  | progress cbv zeta ].
Ltac ctx := cbn [build c_mode c_n c_base c_level c_ks_base c_ks_level c_negs_base c_negs_level c_codec].
Notation deb := (build Checked). Notation relb := (build Wrapping).

Lemma ulog2_rel x : rel eq (ulog2 Checked x) (ulog2 Wrapping x). Proof. unfold ulog2. go. Qed.
#[export] Hint Resolve ulog2_rel : build.
Lemma lossy_loop_rel l : forall i out, rel eq (lossy_loop Checked i l out) (lossy_loop Wrapping i l out).
Proof. induction l as [|x l IH]; intros i out; cbn [lossy_loop]; go. Qed.
Lemma lossy_rel pt : rel eq (pt_to_lossy_u64 Checked pt) (pt_to_lossy_u64 Wrapping pt).
Proof. unfold pt_to_lossy_u64. apply lossy_loop_rel. Qed.
Lemma closest_rel b l x : rel eq (closest_representable Checked b l x) (closest_representable Wrapping b l x). Proof. unfold closest_representable. go. Qed.
Lemma codec_rel t : rel eq (codec_new Checked t) (codec_new Wrapping t). Proof. unfold codec_new. go. Qed.
Lemma modulus_rel c : rel eq (pt_modulus Checked c) (pt_modulus Wrapping c). Proof. unfold pt_modulus. go. Qed.
#[export] Hint Resolve lossy_rel closest_rel codec_rel modulus_rel : build.
Lemma encode_rel c x : rel eq (encode Checked c x) (encode Wrapping c x). Proof. unfold encode. go. Qed.
Lemma decode_rel c x : rel eq (decode Checked c x) (decode Wrapping c x). Proof. unfold decode. go. Qed.
Lemma ternary_rel x : rel eq (ternary_encode Checked x) (ternary_encode Wrapping x). Proof. unfold ternary_encode. go. Qed.
#[export] Hint Resolve encode_rel decode_rel ternary_rel : build.
Lemma poly_encode_rel c p : rel eq (poly_encode Checked c p) (poly_encode Wrapping c p). Proof. unfold poly_encode. go. Qed.
Lemma poly_decode_rel c p : rel eq (poly_decode Checked c p) (poly_decode Wrapping c p). Proof. unfold poly_decode. go. Qed.
Lemma poly_ternary_rel p : rel eq (poly_ternary_encode Checked p) (poly_ternary_encode Wrapping p). Proof. unfold poly_ternary_encode. go. Qed.
Lemma noise_rel n s c e : rel eq (compute_noise Checked n s c e) (compute_noise Wrapping n s c e). Proof. unfold compute_noise. go. Qed.
#[export] Hint Resolve poly_encode_rel poly_decode_rel poly_ternary_rel noise_rel : build.

Section Context.
  Variable cx : ctx.
  Lemma encrypt_rel s pt d : rel eq (encode_encrypt_rlwe (deb cx) s pt d) (encode_encrypt_rlwe (relb cx) s pt d). Proof. unfold encode_encrypt_rlwe. ctx. go. Qed.
  Lemma decrypt_rel s c : rel eq (decrypt_decode_rlwe (deb cx) s c) (decrypt_decode_rlwe (relb cx) s c). Proof. unfold decrypt_decode_rlwe. ctx. go. Qed.
  Lemma rgsw_row_rel e i r : rel eq (encrypt_rgsw_row (deb cx) e i r) (encrypt_rgsw_row (relb cx) e i r). Proof. unfold encrypt_rgsw_row. ctx. go. Qed.
End Context.
#[export] Hint Resolve encrypt_rel decrypt_rel rgsw_row_rel : build.
Lemma encrypt_rgsw_rel cx s b l e t : rel eq (encrypt_rgsw (deb cx) s b l e t) (encrypt_rgsw (relb cx) s b l e t). Proof. unfold encrypt_rgsw. ctx. go. Qed.
#[export] Hint Resolve encrypt_rgsw_rel : build.
Lemma neg_gsw_rel cx s t : rel eq (neg_gsw (deb cx) s t) (neg_gsw (relb cx) s t). Proof. unfold neg_gsw. ctx. go. Qed.
Lemma noise_encoded_rel cx s c pt : rel eq (compute_noise_encoded (deb cx) s c pt) (compute_noise_encoded (relb cx) s c pt). Proof. unfold compute_noise_encoded. ctx. go. Qed.
Lemma bits_rel cx s i n t : rel eq (bit_decomposed_rgsw (deb cx) s i n t) (bit_decomposed_rgsw (relb cx) s i n t). Proof. unfold bit_decomposed_rgsw. ctx. go. Qed.
Lemma feature_rel cx s l v t level : rel eq (encrypt_feature_level (deb cx) s l v t level) (encrypt_feature_level (relb cx) s l v t level). Proof. unfold encrypt_feature_level. ctx. go. Qed.
#[export] Hint Resolve neg_gsw_rel noise_encoded_rel bits_rel feature_rel : build.
Lemma features_rel cx s vs t : rel eq (encrypt_feature_vector (deb cx) s vs t) (encrypt_feature_vector (relb cx) s vs t). Proof. unfold encrypt_feature_vector. ctx. go. Qed.
Lemma recompose_rel cx s cts : rel eq (decrypt_and_recompose (deb cx) s cts) (decrypt_and_recompose (relb cx) s cts). Proof. unfold decrypt_and_recompose. ctx. go. Qed.
Lemma enc_eval_rel fft cx t : rel eq (enc_eval fft (deb cx) t) (enc_eval fft (relb cx) t). Proof. unfold enc_eval, trivial_one. ctx. go. Qed.
Lemma expand_fourier_rel fft cx m g cs : rel eq (expand_fourier fft (deb cx) m g cs) (expand_fourier fft (relb cx) m g cs). Proof. unfold expand_fourier. ctx. go. Qed.
Lemma subs_rel cx s t : rel eq (gen_all_subs_ksk (deb cx) s t) (gen_all_subs_ksk (relb cx) s t). Proof. unfold gen_all_subs_ksk. ctx. go. Qed.
#[export] Hint Resolve features_rel recompose_rel enc_eval_rel expand_fourier_rel subs_rel : build.
Lemma compare_rel fft cx ns cts g m : rel eq (compare_expand fft (deb cx) ns cts g m) (compare_expand fft (relb cx) ns cts g m). Proof. unfold compare_expand, compare_node. ctx. go. Qed.
#[export] Hint Resolve compare_rel : build.
Lemma server_f_rel fft cx model g m ct : rel eq (server_f fft (deb cx) model g m ct) (server_f fft (relb cx) model g m ct). Proof. unfold server_f. go. Qed.
Lemma check_rel cx s model cf : rel eq (check_prediction (deb cx) s model cf) (check_prediction (relb cx) s model cf). Proof. unfold check_prediction. go. Qed.
#[export] Hint Resolve server_f_rel check_rel : build.
Lemma simulate_rel fft cx s model fs t : rel eq (simulate fft (deb cx) s model fs t) (simulate fft (relb cx) s model fs t). Proof. unfold simulate. go. Qed.
