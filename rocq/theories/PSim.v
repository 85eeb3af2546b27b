(** * Property C74: [simulate] gives the same predictions with and without [parallel], under every schedule. *)
From Verif Require Import MBase MUtils MCodec MPoly MRlwe MTree MEncTree MSched MSim.
From Verif Require Import SpecRing SpecLwe SpecTree SpecEnc SpecSched.
From Verif Require Import PfSched PfSched2 PfSched3 PfDet1 PfDet2 PfOram1 LSched PEnc Demo.
Local Open Scope nat_scope.

Lemma lift_run {A} (x : res A) m : run (plift x) m = (x, m).
Proof. destruct x; reflexivity. Qed.
Lemma pure_par_run {A B} (f : A -> res B) l m : par_run (map (fun x => plift (f x)) l) m = (mapM f l, m).
Proof.
  unfold par_run. induction l as [|x l IH]; [reflexivity|]. cbn [map pmapM mapM]. rewrite run_bind, lift_run.
  destruct (f x) as [y|e]; [|reflexivity]. cbn [bind]. rewrite run_bind, IH. destruct (mapM f l); reflexivity.
Qed.
Lemma slift_run {A} (x : res A) m : srun (slift x) m = (x, m).
Proof. destruct x; reflexivity. Qed.

Lemma simulate_run parallel fft cx s model features t m : srun (simulate_with parallel fft cx s model features t) m = (simulate fft cx s model features t, m).
Proof.
  unfold simulate_with, simulate. rewrite srun_bind, slift_run. destruct (neg_gsw cx s (split t 0)) as [neg|e]; [|reflexivity]. cbn [bind].
  destruct (gen_all_subs_ksk cx s (split t 1)) as [ks|e]; [|reflexivity]. cbn [bind fst snd]. rewrite srun_bind, slift_run.
  destruct (mapM _ (combine (seq 0 (length features)) features)) as [cts|e]; [|reflexivity]. cbn [bind]. rewrite srun_bind.
  assert (srun (if parallel then spar (map (fun ct => plift (server_f fft cx model neg ks ct)) cts) else slift (mapM (server_f fft cx model neg ks) cts)) m
          = (mapM (server_f fft cx model neg ks) cts, m)) as ->.
  { destruct parallel; [|apply slift_run]. cbn [spar srun]. rewrite pure_par_run. destruct (mapM _ cts); reflexivity. }
  destruct (mapM (server_f fft cx model neg ks) cts) as [outs|e]; [|reflexivity]. cbn [bind]. apply slift_run.
Qed.
Lemma simulate_det parallel fft cx s model features t m : sdet (simulate_with parallel fft cx s model features t) m.
Proof.
  unfold simulate_with. apply sdet_bind; [apply sdet_lift|]. intros nm m1 _. apply sdet_bind; [apply sdet_lift|]. intros cts m2 _.
  apply sdet_bind; [|intros outs m3 _; apply sdet_lift]. destruct parallel; [|apply sdet_lift]. apply sdet_spar.
  - apply separable_ro. intros p Hp. apply in_map_iff in Hp as (x & <- & _). destruct (server_f fft cx model (fst nm) (snd nm) x); constructor; exact I.
  - apply Forall_forall. intros p Hp. apply in_map_iff in Hp as (x & <- & _). destruct (server_f fft cx model (fst nm) (snd nm) x); constructor.
Qed.

(** With or without the flag, whatever the number of threads and the schedule: the call comes to an end, with
    the outcome of the sequential evaluation (up to the kind of panic). *)
Theorem C74_same_outcome : forall parallel pref fft cx s model features t m,
  (exists r m', sexec pref (simulate_with parallel fft cx s model features t) m r m') /\
  forall r m', sexec pref (simulate_with parallel fft cx s model features t) m r m' ->
    match simulate fft cx s model features t with Ok preds => r = Ok preds | Panic _ => exists e, r = Panic e end.
Proof.
  intros parallel pref fft cx s model features t m. split.
  - apply (sdet_realisable _ _ (simulate_det parallel fft cx s model features t m) pref).
  - intros r m' H. pose proof (sexec_det pref _ _ _ _ (simulate_det parallel fft cx s model features t m) H) as Hd. rewrite simulate_run in Hd.
    destruct (simulate fft cx s model features t); [apply Hd|exact Hd].
Qed.
Print Assumptions C74_same_outcome.

(** So the parallel protocol predicts what the plaintext tree predicts. *)
Theorem C74_parallel_predictions : forall parallel pref lg k cx fft eps s S E model features t m r m',
  params_ok cx lg k -> fft_for cx fft eps -> binary_key (c_n cx) s -> l1 (c_n cx) (tof s) S -> tape_ok (c_n cx) E t ->
  (exists th f ix op l r, model = Internal th f ix op l r) ->
  (forall th f ix op l r, sub (Internal th f ix op l r) model -> th < c_n cx) ->
  Forall (fun x => (Z.of_nat x < 2 ^ 48)%Z) (labels model) -> (exists y, In y (labels model) /\ y <> 0) ->
  Forall (fun fs => evaluable model fs /\ Forall (fun v => v < c_n cx) fs) features ->
  (2 * (Z.of_nat (list_sum (leaf_depths model)) *
        ep_bound (c_n cx) (c_base cx) (c_level cx) S 1 (decision_noise cx S E eps) eps) < 2 ^ (64 - k))%Z ->
  sexec pref (simulate_with parallel fft cx s model features t) m r m' ->
  exists preds, r = Ok preds /\ Forall2 (fun fs p => exists x, predicts model fs x /\ p = Z.of_nat x) features preds.
Proof.
  intros parallel pref lg k cx fft eps s S E model features t m r m' Hp Hf Hs HS Ht Hi Hth Hl Hnz Hfs HB Hx.
  destruct (C39_private_evaluation lg k cx fft eps s S E model features t Hp Hf Hs HS Ht Hi Hth Hl Hnz Hfs HB) as (preds & E1 & HF).
  destruct (C74_same_outcome parallel pref fft cx s model features t m) as [_ H]. specialize (H r m' Hx). rewrite E1 in H. eauto.
Qed.
Print Assumptions C74_parallel_predictions.

(** An instance. *)
Example C74_applies : forall pref r m',
  sexec pref (simulate_with true (exact_fft 4) demo_cx demo_s c39_tree [[1; 2]; [0; 3]; [2; 0]; [3; 3]] demo_tape) [] r m' -> r = Ok [5; 2; 0; 0]%Z.
Proof.
  intros pref r m' H. destruct (C74_same_outcome true pref (exact_fft 4) demo_cx demo_s c39_tree [[1; 2]; [0; 3]; [2; 0]; [3; 3]] demo_tape []) as [_ HD].
  specialize (HD r m' H). rewrite C39_nonvacuous in HD. exact HD.
Qed.
