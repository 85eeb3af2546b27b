(** * Proofs of C99: what is printed. *)
From Coq Require Import String Ascii.
From Verif Require Import MBase MUtils MCodec MPoly MRlwe MLwe MHash MTree MEncTree MParams MSched MOram MMain MJson MOut MCli.
From Verif Require Import SpecBuild PfBuild PfBuild2.
Local Open Scope string_scope.

Definition prel {A B} (R : A -> B -> Prop) (x : printing A) (y : printing B) : Prop :=
  (snd x = Panic POverflow /\ exists s, fst y = fst x +++ s) \/
  (fst y = fst x /\ ((exists a b, snd x = Ok a /\ snd y = Ok b /\ R a b) \/ exists e, snd x = Panic e /\ snd y = Panic e)).
Lemma app_nil_s s : s +++ "" = s. Proof. induction s; cbn; [reflexivity|]. f_equal. exact IHs. Qed.
Lemma app_assoc_s a b c : (a +++ b) +++ c = a +++ (b +++ c). Proof. induction a; cbn; [reflexivity|]. f_equal. exact IHa. Qed.
Lemma prel_refl {A} (x : printing A) : prel eq x x.
Proof. right. split; [reflexivity|]. destruct (snd x); [left; eauto|right; eauto]. Qed.
Lemma prel_quiet {A B} (R : A -> B -> Prop) x y : rel R x y -> prel R (quiet x) (quiet y).
Proof. intros [->|[H|H]]; [left; split; [reflexivity|exists ""; reflexivity]|right; split; [reflexivity|left; exact H]|right; split; [reflexivity|right; exact H]]. Qed.
Lemma prel_bind {A B C D} (R : A -> B -> Prop) (Q : C -> D -> Prop) x y f g : prel R x y -> (forall a b, R a b -> prel Q (f a) (g b)) -> prel Q (pbind x f) (pbind y g).
Proof.
  intros [(E & s & Hs)|(E & [(a & b & Ea & Eb & HR)|(e & Ea & Eb)])] Hf; unfold pbind.
  - rewrite E. left. cbn. split; [reflexivity|]. rewrite Hs. destruct (snd y); cbn; [eexists; apply app_assoc_s|eexists; reflexivity].
  - rewrite Ea, Eb. cbn. destruct (Hf a b HR) as [(E1 & s & Hs)|(E1 & H1)].
    + left. cbn. split; [exact E1|]. exists s. rewrite E, Hs. symmetry. apply app_assoc_s.
    + right. cbn. split; [rewrite E, E1; reflexivity|exact H1].
  - rewrite Ea, Eb. right. cbn. split; [exact E|]. right. eauto.
Qed.
Lemma prel_bind_eq {A C D} (Q : C -> D -> Prop) (x y : printing A) f g : prel eq x y -> (forall a, prel Q (f a) (g a)) -> prel Q (pbind x f) (pbind y g).
Proof. intros H Hf. apply (prel_bind eq); [exact H|]. intros a b <-. apply Hf. Qed.
Lemma iterate_prel {A} rep (f g : nat -> server -> res (A * server)) js :
  (forall j sv, rel pairs (f j (server_in Checked sv)) (g j (server_in Wrapping sv))) ->
  forall a b, servers a b -> prel eq (iterate_out rep f js a) (iterate_out rep g js b).
Proof.
  intros H. induction js as [|j js IH]; intros a b (sv & -> & ->); cbn [iterate_out]; [apply prel_refl|].
  apply (prel_bind pairs); [apply prel_quiet, H|intros [y sv1] [y' sv1'] [E Sv]]. cbn [fst snd] in *. subst y'.
  apply prel_bind_eq; [apply prel_refl|intros _]. apply IH, Sv.
Qed.
Ltac pstart := apply prel_bind_eq; [apply prel_refl|intros _]; cbv zeta; apply prel_bind_eq; [apply prel_quiet, ulog2_rel|intros l];
  apply prel_bind_eq; [apply prel_refl|intros _];
  match goal with |- prel _ (if ?b then _ else _) _ => destruct b end; [apply prel_refl|]; apply prel_bind_eq; [apply prel_refl|intros nh];
  apply (prel_bind contexts); [apply prel_quiet, context_rel|intros ? ? (cx & -> & ->)];
  apply (prel_bind setups); [apply prel_quiet, setup_rel|intros [[c1 s1] p1] [[c2 s2] p2] ((cl & E1 & E2) & Sv & E)]; cbn [fst snd] in *; subst.
Section Out.
  Variable show_dev : Z -> string.
  Lemma single_prel sn fft ic it p d co c0 : prel eq (single_query_out sn fft Checked ic it p d co c0) (single_query_out sn fft Wrapping ic it p d co c0).
  Proof. unfold single_query_out. pstart. apply iterate_prel; [intros; apply single_iter_rel|exact Sv]. Qed.
  Lemma multi_prel sn fft ic qc it p d co c0 : prel eq (multi_query_out sn fft Checked ic qc it p d co c0) (multi_query_out sn fft Wrapping ic qc it p d co c0).
  Proof. unfold multi_query_out. pstart. apply prel_bind_eq; [apply prel_refl|intros _]. apply iterate_prel; [intros; apply multi_iter_rel|exact Sv]. Qed.
  Lemma batch_prel sn fft rows cols it p d co c0 : prel eq (batch_query_out sn fft Checked rows cols it p d co c0) (batch_query_out sn fft Wrapping rows cols it p d co c0).
  Proof. unfold batch_query_out. pstart. apply iterate_prel; [intros; apply batch_iter_rel|exact Sv]. Qed.
  Lemma params_prel sn fft d sp co c0 : prel eq (run_params_out show_dev sn fft Checked d sp co c0) (run_params_out show_dev sn fft Wrapping d sp co c0).
  Proof.
    unfold run_params_out, run_params_with. cbv zeta. apply prel_bind_eq; [apply prel_quiet, ulog2_rel|intros l].
    apply prel_bind_eq; [apply prel_refl|intros _]. destruct (sp_oram sp); [apply single_prel|apply multi_prel|apply batch_prel].
  Qed.
  Lemma sets_prel sn fft d co c0 sps : forall i, prel eq (sets_out show_dev sn fft Checked d co c0 i sps) (sets_out show_dev sn fft Wrapping d co c0 i sps).
  Proof. induction sps; intros i; cbn [sets_out]; [apply prel_refl|]. apply prel_bind_eq; [apply params_prel|intros _]. apply IHsps. Qed.
  Lemma main_prel sn fft f c co c0 : prel eq (main_out show_dev sn fft Checked f c co c0) (main_out show_dev sn fft Wrapping f c co c0).
  Proof. unfold main_out. apply prel_bind_eq; [apply prel_refl|intros _]. apply sets_prel. Qed.
End Out.
