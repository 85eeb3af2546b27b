(** * Proofs of C99: server, client and drivers. *)
From Coq Require Import String.
From Verif Require Import MBase MUtils MCodec MPoly MRlwe MLwe MHash MTree MEncTree MParams MSched MOram MMain.
From Verif Require Import SpecBuild PfBuild.
Local Open Scope nat_scope.

(** Tasks that differ only after an overflow. *)
Inductive psame {A} : prog A -> prog A -> Prop :=
| psame_refl p : psame p p
| psame_over p : psame (PFail POverflow) p
| psame_lock l k k' : psame k k' -> psame (PLock l k) (PLock l k')
| psame_unlock l k k' : psame k k' -> psame (PUnlock l k) (PUnlock l k')
| psame_len r k k' : (forall x, psame (k x) (k' x)) -> psame (PLen r k) (PLen r k')
| psame_load r c k k' : (forall x, psame (k x) (k' x)) -> psame (PLoad r c k) (PLoad r c k')
| psame_store r c v k k' : psame k k' -> psame (PStore r c v k) (PStore r c v k').
Definition over {A} (x y : res A * mem) : Prop := fst x = Panic POverflow \/ y = x.
Lemma psame_run {A} (p p' : prog A) : psame p p' -> forall m, over (run p m) (run p' m).
Proof.
  induction 1; intros m; cbn [run].
  - right. reflexivity.
  - left. reflexivity.
  - apply IHpsame.
  - apply IHpsame.
  - destruct (mlen m r); [apply H0|right; reflexivity].
  - destruct (mget m r c); [apply H0|right; reflexivity].
  - destruct (mget m r c); [apply IHpsame|right; reflexivity].
Qed.
Lemma psame_bind_r {A B} (p : prog A) (f g : A -> prog B) : (forall a, psame (f a) (g a)) -> psame (pbind p f) (pbind p g).
Proof. intros H. induction p; cbn; try (constructor; auto); try apply H. Qed.
Lemma psame_bind {A B} (p p' : prog A) (f g : A -> prog B) : psame p p' -> (forall a, psame (f a) (g a)) -> psame (pbind p f) (pbind p' g).
Proof.
  intros Hp H. induction Hp; cbn; try (constructor; auto; fail).
  - apply psame_bind_r, H.
Qed.
Lemma psame_lift {A} (x y : res A) : rel eq x y -> psame (plift x) (plift y).
Proof. intros [->|[(a & b & -> & -> & <-)|(e & -> & ->)]]; cbn; constructor. Qed.
Lemma psame_mapM {A B} (f g : A -> prog B) l : (forall x, psame (f x) (g x)) -> psame (pmapM f l) (pmapM g l).
Proof. intros H. induction l; cbn; [constructor|]. apply psame_bind; [apply H|]. intros y. apply psame_bind; [exact IHl|]. intros. constructor. Qed.
Lemma psame_foldM {A S} (f g : S -> A -> prog S) l : (forall s x, psame (f s x) (g s x)) -> forall s, psame (pfoldM f l s) (pfoldM g l s).
Proof. intros H. induction l; intros s; cbn; [constructor|]. apply psame_bind; [apply H|]. intros y. apply IHl. Qed.
Lemma psame_tasks {A} (ts ts' : list (prog A)) : Forall2 psame ts ts' -> psame (pmapM (fun p => p) ts) (pmapM (fun p => p) ts').
Proof. induction 1; cbn; [constructor|]. apply psame_bind; [exact H|]. intros ?. apply psame_bind; [exact IHForall2|]. intros. constructor. Qed.

Inductive ssame {A} : sprog A -> sprog A -> Prop :=
| ssame_refl p : ssame p p
| ssame_over p : ssame (SFail POverflow) p
| ssame_par {B} (ts ts' : list (prog B)) k k' : Forall2 psame ts ts' -> (forall x, ssame (k x) (k' x)) -> ssame (SPar ts k) (SPar ts' k')
| ssame_reduce n k k' : (forall x, ssame (k x) (k' x)) -> ssame (SReduce n k) (SReduce n k').
Lemma ssame_run {A} (p p' : sprog A) : ssame p p' -> forall m, over (srun p m) (srun p' m).
Proof.
  induction 1; intros m; cbn [srun].
  - right. reflexivity.
  - left. reflexivity.
  - unfold par_run. destruct (psame_run _ _ (psame_tasks _ _ H) m) as [E| ->].
    + destruct (run _ m) as [r m1]. cbn in E. subst. left. reflexivity.
    + destruct (run _ m) as [[a|e] m1]; [apply H1|right; reflexivity].
  - apply H0.
Qed.
Lemma forall2_psame {A} (ts : list (prog A)) : Forall2 psame ts ts.
Proof. induction ts; constructor; [apply psame_refl|assumption]. Qed.
Lemma ssame_bind_r {A B} (p : sprog A) (f g : A -> sprog B) : (forall a, ssame (f a) (g a)) -> ssame (sbind p f) (sbind p g).
Proof. intros H. induction p; cbn; try (constructor; auto using forall2_psame); try apply H. Qed.
Lemma ssame_bind {A B} (p p' : sprog A) (f g : A -> sprog B) : ssame p p' -> (forall a, ssame (f a) (g a)) -> ssame (sbind p f) (sbind p' g).
Proof. intros Hp H. induction Hp; cbn; try (constructor; auto; fail). apply ssame_bind_r, H. Qed.
Lemma ssame_spar {A B} (f g : A -> prog B) l : (forall x, psame (f x) (g x)) -> ssame (spar (map f l)) (spar (map g l)).
Proof. intros H. unfold spar. apply ssame_par; [|intros; constructor]. induction l; cbn; constructor; auto. Qed.
Lemma psame_tid {A B} w (f g : A -> prog B) : (forall x, psame (f x) (g x)) -> forall x, psame (tid w f x) (tid w g x).
Proof. intros H x. unfold tid. destruct w; [apply H|constructor]. Qed.

(** The server. *)
Ltac pgo := repeat first
  [ apply psame_refl | apply ssame_refl | solve [eauto with build]
  | apply psame_bind; [|intros] | apply psame_lift; solve [go] | apply psame_mapM; intros | apply psame_foldM; intros
  | apply ssame_bind; [|intros] | apply ssame_spar; apply psame_tid; intros | apply ssame_spar; intros
  | match goal with |- ssame (if ?b then _ else _) (if ?b then _ else _) => destruct b end
  | progress cbv zeta ].
Lemma level_same fft cx q l : psame (level_task fft (deb cx) q l) (level_task fft (relb cx) q l).
Proof. unfold level_task. ctx. pgo. Qed.
#[export] Hint Resolve level_same : build.
Lemma one_st_same fft cx s q r : psame (process_one_st fft (deb cx) s q r) (process_one_st fft (relb cx) s q r).
Proof. unfold process_one_st. ctx. pgo. Qed.
#[export] Hint Resolve one_st_same : build.
Lemma one_mt_same pool fft cx s q r : ssame (process_one_mt pool fft (deb cx) s q r) (process_one_mt pool fft (relb cx) s q r).
Proof. unfold process_one_mt. ctx. pgo. Qed.
#[export] Hint Resolve one_mt_same : build.
Lemma one_same pool fft cx s q : ssame (process_one pool fft (deb cx) s q) (process_one pool fft (relb cx) s q).
Proof. unfold process_one. pgo. Qed.
Lemma multi_same pool fft cx s qs : ssame (process_multi pool fft (deb cx) s qs) (process_multi pool fft (relb cx) s qs).
Proof. unfold process_multi. ctx. pgo. Qed.
Lemma batch_same pool fft cx s rows qs nh : ssame (process_batch pool fft (deb cx) s rows qs nh) (process_batch pool fft (relb cx) s rows qs nh).
Proof. unfold process_batch. pgo. Qed.

(** Client and server in both builds. *)
Definition servers (a b : server) : Prop := exists sv, a = server_in Checked sv /\ b = server_in Wrapping sv.
Definition clients (a b : client) : Prop := exists cl, a = client_in Checked cl /\ b = client_in Wrapping cl.
Definition pairs {A} (x y : A * server) : Prop := fst x = fst y /\ servers (snd x) (snd y).
Lemma with_server_rel {A} sv (p p' : sprog A) : ssame p p' -> rel pairs (with_server (server_in Checked sv) p) (with_server (server_in Wrapping sv) p').
Proof.
  intros H. unfold with_server. cbn [server_in srv_data srv_neg srv_cx].
  destruct (ssame_run _ _ H (srv_data sv)) as [E| ->].
  - destruct (srun p (srv_data sv)) as [r m]. cbn in E. subst. apply rel_over.
  - destruct (srun p (srv_data sv)) as [[a|e] m]; [|apply rel_panic]. apply rel_ok. split; [reflexivity|].
    exists {| srv_data := m; srv_neg := srv_neg sv; srv_cx := srv_cx sv |}. split; reflexivity.
Qed.
Lemma server_one_rel pool fft sv q : rel pairs (server_process_one pool fft (server_in Checked sv) q) (server_process_one pool fft (server_in Wrapping sv) q).
Proof. unfold server_process_one. apply with_server_rel, one_same. Qed.
Lemma server_multi_rel pool fft sv q : rel pairs (server_process_multi pool fft (server_in Checked sv) q) (server_process_multi pool fft (server_in Wrapping sv) q).
Proof. unfold server_process_multi. apply with_server_rel, multi_same. Qed.
Lemma server_batch_rel pool fft sv q nh : rel pairs (server_process_batch pool fft (server_in Checked sv) q nh) (server_process_batch pool fft (server_in Wrapping sv) q nh).
Proof. unfold server_process_batch. apply with_server_rel. apply batch_same. Qed.
Lemma decrypt_db_rel sv sk : rel eq (decrypt_db (server_in Checked sv) sk) (decrypt_db (server_in Wrapping sv) sk).
Proof. unfold decrypt_db. cbn [server_in srv_data srv_cx]. ctx. go. Qed.
Ltac cli := cbn [client_in cl_sk cl_cx cl_rows cl_cols].
Lemma neg_sk_rel cl t : rel eq (gen_neg_sk (client_in Checked cl) t) (gen_neg_sk (client_in Wrapping cl) t).
Proof. unfold gen_neg_sk. cli. go. Qed.
Lemma enc_data_rel cl a d : rel eq (enc_data_rlwe (client_in Checked cl) a d) (enc_data_rlwe (client_in Wrapping cl) a d).
Proof. unfold enc_data_rlwe. cli. go. Qed.
#[export] Hint Resolve neg_sk_rel enc_data_rel : build.
Lemma read_rel cl i d t : rel eq (make_read_query (client_in Checked cl) i d t) (make_read_query (client_in Wrapping cl) i d t).
Proof. unfold make_read_query. cli. go. Qed.
Lemma write_rel cl i d t : rel eq (make_write_query (client_in Checked cl) i d t) (make_write_query (client_in Wrapping cl) i d t).
Proof. unfold make_write_query. cli. go. Qed.
#[export] Hint Resolve read_rel write_rel : build.
Lemma read_batch_rel cl is nh dm t : rel eq (gen_read_query_batch (client_in Checked cl) is nh dm t) (gen_read_query_batch (client_in Wrapping cl) is nh dm t).
Proof. unfold gen_read_query_batch. cli. go. Qed.
Lemma write_batch_rel cl is a nh dm t : rel eq (gen_write_query_batch (client_in Checked cl) is a nh dm t) (gen_write_query_batch (client_in Wrapping cl) is a nh dm t).
Proof. unfold gen_write_query_batch. cli. go. Qed.
#[export] Hint Resolve read_batch_rel write_batch_rel : build.
Lemma read_one_rel cl i nh dm t : rel eq (gen_read_query_one (client_in Checked cl) i nh dm t) (gen_read_query_one (client_in Wrapping cl) i nh dm t).
Proof. unfold gen_read_query_one. go. Qed.
Lemma write_one_rel cl i a nh dm t : rel eq (gen_write_query_one (client_in Checked cl) i a nh dm t) (gen_write_query_one (client_in Wrapping cl) i a nh dm t).
Proof. unfold gen_write_query_one. go. Qed.
#[export] Hint Resolve read_one_rel write_one_rel : build.
Lemma dummy_rel cl nh gp t : rel eq (gen_dummy_database (client_in Checked cl) nh gp t) (gen_dummy_database (client_in Wrapping cl) nh gp t).
Proof.
  unfold gen_dummy_database. cli. ctx. destruct (nh_h_count nh =? 0); [apply rel_refl|]. cbv zeta.
  apply rel_bind_eq; [|intros db].
  { apply rel_foldM. intros s i. unfold dummy_unique. cli. go. }
  apply rel_refl.
Qed.
#[export] Hint Resolve dummy_rel : build.
Definition setups (x y : client * server * list poly) : Prop := clients (fst (fst x)) (fst (fst y)) /\ servers (snd (fst x)) (snd (fst y)) /\ snd x = snd y.
Lemma setup_rel rows cols nh cx sk gp t : rel setups (setup_random_oram rows cols nh (deb cx) sk gp t) (setup_random_oram rows cols nh (relb cx) sk gp t).
Proof.
  unfold setup_random_oram. apply rel_bind_eq; [apply rel_refl|intros _]. cbv zeta.
  pose (cl := client_new rows cols cx sk).
  apply rel_bind_eq; [exact (neg_sk_rel cl _)|intros ng].
  apply rel_bind_eq; [exact (dummy_rel cl nh gp _)|intros [plain data]].
  apply rel_ok. split; [exists cl; split; reflexivity|]. split; [|reflexivity].
  exists (server_new data ng cx). split; reflexivity.
Qed.

(** Drivers. *)
Definition contexts (a b : ctx) : Prop := exists cx, a = deb cx /\ b = relb cx.
Lemma context_rel p : rel contexts (context_new Checked p) (context_new Wrapping p).
Proof.
  unfold context_new. apply rel_bind_eq; [apply codec_rel|intros c]. apply rel_ok.
  eexists {| c_mode := Checked; c_codec := c |}. split; cbv [build c_n c_base c_level c_ks_base c_ks_level c_negs_base c_negs_level c_codec]; reflexivity.
Qed.
Lemma single_iter_rel fft cl nh pts co j sv :
  rel pairs (single_iter fft (client_in Checked cl) nh pts co j (server_in Checked sv)) (single_iter fft (client_in Wrapping cl) nh pts co j (server_in Wrapping sv)).
Proof.
  unfold single_iter. cbv zeta. apply rel_bind_eq; [apply read_one_rel|intros qy].
  apply (rel_bind pairs); [apply server_one_rel|intros [y sv1] [y' sv1'] [E S]]. cbn in E, S. subst y'. cli.
  apply rel_bind_eq; [apply decrypt_rel|intros pt]. apply rel_bind_eq; [apply rel_refl|intros ex].
  apply rel_bind_eq; [apply rel_refl|intros _]. apply rel_bind_eq; [apply noise_encoded_rel|intros v].
  apply rel_ok. split; [reflexivity|exact S].
Qed.
Lemma multi_iter_rel fft cl nh pts qc co j sv :
  rel pairs (multi_iter fft (client_in Checked cl) nh pts qc co j (server_in Checked sv)) (multi_iter fft (client_in Wrapping cl) nh pts qc co j (server_in Wrapping sv)).
Proof.
  unfold multi_iter. apply rel_bind_eq; [go|intros qs].
  apply (rel_bind pairs); [apply server_multi_rel|intros [y sv1] [y' sv1'] [E S]]. cbn in E, S. subst y'. cli.
  apply rel_bind_eq; [go|intros v]. apply rel_ok. split; [reflexivity|exact S].
Qed.
Lemma batch_iter_rel fft cl nh pts is cols co j sv :
  rel pairs (batch_iter fft (client_in Checked cl) nh pts is cols co j (server_in Checked sv)) (batch_iter fft (client_in Wrapping cl) nh pts is cols co j (server_in Wrapping sv)).
Proof.
  unfold batch_iter. apply rel_bind_eq; [go|intros qs].
  apply (rel_bind pairs); [apply server_batch_rel|intros [y sv1] [y' sv1'] [E S]]. cbn in E, S. subst y'.
  apply rel_bind_eq; [|intros v; apply rel_ok; split; [reflexivity|exact S]].
  unfold batch_check. cli. go.
Qed.
Lemma iterate_rel {A} (f g : nat -> server -> res (A * server)) js :
  (forall j sv, rel pairs (f j (server_in Checked sv)) (g j (server_in Wrapping sv))) ->
  forall a b, servers a b -> rel eq (iterate f js a) (iterate g js b).
Proof.
  intros H. induction js as [|j js IH]; intros a b (sv & -> & ->); cbn [iterate]; [apply rel_refl|].
  apply (rel_bind pairs); [apply H|intros [y sv1] [y' sv1'] [E S]]. cbn in E, S. subst y'.
  apply rel_bind_eq; [apply IH, S|intros; apply rel_refl].
Qed.
Ltac start := apply rel_bind_eq; [apply rel_refl|intros _]; cbv zeta; apply rel_bind_eq; [apply ulog2_rel|intros _];
  match goal with |- rel _ (if ?b then _ else _) _ => destruct b end; [apply rel_refl|]; apply rel_bind_eq; [apply rel_refl|intros nh];
  apply (rel_bind contexts); [apply context_rel|intros ? ? (cx & -> & ->)];
  apply (rel_bind setups); [apply setup_rel|intros [[c1 s1] p1] [[c2 s2] p2] ((cl & E1 & E2) & Sv & E)]; cbn [fst snd] in *; subst.
Lemma single_rel fft ic it p d co : rel eq (single_query fft Checked ic it p d co) (single_query fft Wrapping ic it p d co).
Proof. unfold single_query. start. apply iterate_rel; [intros; apply single_iter_rel|exact Sv]. Qed.
Lemma multi_rel fft ic qc it p d co : rel eq (multi_query fft Checked ic qc it p d co) (multi_query fft Wrapping ic qc it p d co).
Proof. unfold multi_query. start. apply rel_bind_eq; [apply rel_refl|intros _]. apply iterate_rel; [intros; apply multi_iter_rel|exact Sv]. Qed.
Lemma batch_rel is fft rows cols it p d co : rel eq (batch_query_with is fft Checked rows cols it p d co) (batch_query_with is fft Wrapping rows cols it p d co).
Proof. unfold batch_query_with. start. apply iterate_rel; [intros; apply batch_iter_rel|exact Sv]. Qed.
#[export] Hint Resolve single_rel multi_rel batch_rel : build.
Lemma run_params_rel fft d sp co : rel eq (run_params fft Checked d sp co) (run_params fft Wrapping d sp co).
Proof. unfold run_params, batch_query. go. Qed.
#[export] Hint Resolve run_params_rel : build.
Lemma main_rel fft f c co : rel eq (main_run fft Checked f c co) (main_run fft Wrapping f c co).
Proof. unfold main_run. go. Qed.
