(** * No poisoned locks; rejected calls: proofs *)
From Coq Require Import Permutation.
From Verif Require Import MBase MUtils MPoly MRlwe MHash MEncTree MSched MOram SpecOram SpecConc SpecMixed SpecSched SpecReject.
From Verif Require Import PfSched PfSched2 PfSched3 PfOram1 PfDet1 PfDet2 PfDet3 PfWidth PfHist PSched.
Local Open Scope nat_scope.

Definition inr_ (sh : list nat) (r c : nat) : Prop := exists x, nth_error sh r = Some x /\ c < x.

(** [wsafe sh Q b p]: stores happen, in range, only between taking and releasing a write lock ([b]), where
    nothing else happens; results satisfy [Q]. *)
Inductive wsafe {A} (sh : list nat) (Q : A -> Prop) : bool -> prog A -> Prop :=
| W_ret a : Q a -> wsafe sh Q false (PRet a)
| W_fail e : wsafe sh Q false (PFail e)
| W_read r k : wsafe sh Q false k -> wsafe sh Q false (PLock (LRead r) k)
| W_buf k : wsafe sh Q false k -> wsafe sh Q false (PLock LBuf k)
| W_write r k : wsafe sh Q true k -> wsafe sh Q false (PLock (LWrite r) k)
| W_unread r k : wsafe sh Q false k -> wsafe sh Q false (PUnlock (LRead r) k)
| W_unbuf k : wsafe sh Q false k -> wsafe sh Q false (PUnlock LBuf k)
| W_unwrite r k : wsafe sh Q false k -> wsafe sh Q true (PUnlock (LWrite r) k)
| W_len r k : (forall x, nth_error sh r = Some x -> wsafe sh Q false (k x)) -> wsafe sh Q false (PLen r k)
| W_load r c k : (forall v, inr_ sh r c -> wsafe sh Q false (k v)) -> wsafe sh Q false (PLoad r c k)
| W_store r c v k : inr_ sh r c -> wsafe sh Q true k -> wsafe sh Q true (PStore r c v k).

Lemma wsafe_bind {A B} sh (Q : A -> Prop) (Q' : B -> Prop) b (p : prog A) (f : A -> prog B) :
  wsafe sh Q b p -> (forall a, Q a -> wsafe sh Q' false (f a)) -> wsafe sh Q' b (pbind p f).
Proof. intros Hp Hf. induction Hp; cbn [pbind]; try (constructor; auto; fail). auto. Qed.
Lemma wsafe_imp {A} sh (Q Q' : A -> Prop) b p : (forall a, Q a -> Q' a) -> wsafe sh Q b p -> wsafe sh Q' b p.
Proof. intros Hi Hp. induction Hp; constructor; auto. Qed.
Lemma wsafe_lift {A} sh (x : res A) : wsafe sh (fun a => x = Ok a) false (plift x).
Proof. destruct x; constructor; reflexivity. Qed.
Lemma wsafe_pmapM {A B} sh (Q : A -> B -> Prop) (f : A -> prog B) l :
  (forall x, In x l -> wsafe sh (Q x) false (f x)) -> wsafe sh (fun ys => Forall2 Q l ys) false (pmapM f l).
Proof.
  induction l as [|x l IH]; intros H; cbn [pmapM]; [constructor; constructor|].
  eapply wsafe_bind; [apply H; left; reflexivity|]. intros y Hy.
  eapply wsafe_bind; [apply IH; intros z Hz; apply H; right; exact Hz|]. intros ys Hys. constructor. constructor; assumption.
Qed.
Lemma wsafe_pfoldM {A S} sh (Q : list A -> S -> Prop) (f : S -> A -> prog S) l : forall pre s, Q pre s ->
  (forall pre s x, In x l -> Q pre s -> wsafe sh (Q (pre ++ [x])) false (f s x)) ->
  wsafe sh (Q (pre ++ l)) false (pfoldM f l s).
Proof.
  induction l as [|x l IH]; intros pre s Hs H; cbn [pfoldM]; [constructor; rewrite app_nil_r; exact Hs|].
  eapply wsafe_bind; [apply (H pre); [left; reflexivity|exact Hs]|]. intros s' Hs'.
  replace (pre ++ x :: l) with ((pre ++ [x]) ++ l) by (rewrite <- app_assoc; reflexivity).
  apply IH; [exact Hs'|]. intros pre' s2 y Hy Hq. apply H; [right; exact Hy|exact Hq].
Qed.
Lemma wsafe_cell_buf sh r c : wsafe sh (fun _ => inr_ sh r c) false (cell_buf r c).
Proof. unfold cell_buf. constructor. constructor. intros v Hv. repeat constructor. exact Hv. Qed.
Lemma wsafe_cell_only sh r c : wsafe sh (fun _ => inr_ sh r c) false (cell_only r c).
Proof. unfold cell_only. constructor. constructor. intros v Hv. repeat constructor. exact Hv. Qed.
Lemma wsafe_buf_only sh : wsafe sh (fun _ => True) false buf_only.
Proof. repeat constructor. Qed.
Lemma wsafe_row_len sh r : wsafe sh (fun x => nth_error sh r = Some x) false (row_len r).
Proof. unfold row_len. constructor. constructor. intros x Hx. repeat constructor. exact Hx. Qed.
Lemma wsafe_put sh r c v : inr_ sh r c -> wsafe sh (fun _ => True) false (put r c v).
Proof. intros H. unfold put. constructor. constructor; [exact H|]. repeat constructor. Qed.

Definition ok_task {A} (sh : list nat) (p : prog A) : Prop := wsafe sh (fun _ => True) false p.
Lemma ok_any {A} sh (Q : A -> Prop) p : wsafe sh Q false p -> ok_task sh p.
Proof. apply wsafe_imp. auto. Qed.

(** Reachable configurations. *)
Definition no_write (h : list lock) : Prop := forall r, ~ In (LWrite r) h.
Definition wok {A} (sh : list nat) (w : worker A) : Prop :=
  (wsafe sh (fun _ => True) false (w_prog w) /\ no_write (w_held w)) \/
  (wsafe sh (fun _ => True) true (w_prog w) /\ exists r h, w_held w = LWrite r :: h /\ no_write h).
Lemma held_tl h : no_write h -> no_write (tl h).
Proof. intros H r Hr. apply (H r). destruct h; [destruct Hr|right; exact Hr]. Qed.
Lemma true_not_fail {A} sh (Q : A -> Prop) e : ~ wsafe sh Q true (PFail e).
Proof. inversion 1. Qed.
Lemma held_nf {A} (p p' : prog A) h : (forall e, p' <> PFail e) ->
  held_after p p' h = match p with PLock l _ => l :: h | PUnlock _ _ => tl h | _ => h end.
Proof. intros H. unfold held_after. destruct p'; auto. destruct (H p0); reflexivity. Qed.
Lemma wok_false {A} sh (p p' : prog A) h : wsafe sh (fun _ => True) false p' ->
  no_write (match p with PLock l _ => l :: h | PUnlock _ _ => tl h | _ => h end) -> wok sh {| w_prog := p'; w_held := held_after p p' h |}.
Proof. intros H Hh. left. split; [exact H|]. cbn [w_held]. unfold held_after. destruct p'; try exact Hh. intros r []. Qed.
Lemma mget_inr m r c v : mget m r c = Some v -> inr_ (shape m) r c.
Proof. intros H. apply mget_some_shape. eauto. Qed.
Lemma wok_next {A} sh (w : worker A) m p' m' : shape m = sh -> wok sh w -> next (w_prog w) m = Some (p', m') ->
  wok sh {| w_prog := p'; w_held := held_after (w_prog w) p' (w_held w) |} /\ forall e r, p' = PFail e -> ~ In (LWrite r) (guards w).
Proof.
  intros Hsh Hw Hn. destruct w as [p h]. unfold guards. cbn [w_prog w_held] in *.
  assert (forall l, (forall r, l <> LWrite r) -> no_write h -> no_write (l :: h)) as Hcons.
  { intros l Hl Hh r [->|Hr]; [exact (Hl r eq_refl)|exact (Hh r Hr)]. }
  destruct Hw as [[Hp Hh]|[Hp (rr & h' & Eh & Hh)]]; cbn [w_prog w_held] in *.
  - inversion Hp as [a Qa|e|r k Hk|k Hk|r k Hk|r k Hk|k Hk| |r k Hk|r c k Hk|]; subst; cbn [next] in Hn; try discriminate.
    + injection Hn as <- <-. assert (no_write (LRead r :: h)) as Hx by (apply Hcons; [discriminate|exact Hh]).
      split; [apply wok_false; assumption|]. intros e r0 _. apply Hx.
    + injection Hn as <- <-. assert (no_write (LBuf :: h)) as Hx by (apply Hcons; [discriminate|exact Hh]).
      split; [apply wok_false; assumption|]. intros e r0 _. apply Hx.
    + injection Hn as <- <-. split.
      * right. cbn [w_prog w_held]. split; [exact Hk|]. rewrite held_nf; [eauto|]. intros e ->. eapply true_not_fail, Hk.
      * intros e r0 ->. exfalso. eapply true_not_fail, Hk.
    + injection Hn as <- <-. split; [apply wok_false; [exact Hk|apply held_tl, Hh]|]. intros e r0 _. apply held_tl, Hh.
    + injection Hn as <- <-. split; [apply wok_false; [exact Hk|apply held_tl, Hh]|]. intros e r0 _. apply held_tl, Hh.
    + injection Hn as <- <-. split; [|intros e r0 _; apply Hh]. apply wok_false; [|exact Hh]. rewrite mlen_shape. destruct (nth_error (shape m) r) eqn:E; [apply Hk; reflexivity|constructor].
    + injection Hn as <- <-. split; [|intros e r0 _; apply Hh]. apply wok_false; [|exact Hh]. destruct (mget m r c) eqn:E; [apply Hk; eapply mget_inr; exact E|constructor].
  - subst h. inversion Hp as [| | | | | | |r k Hk| | |r c v k Hr Hk]; subst; cbn [next] in Hn.
    + injection Hn as <- <-. split; [apply wok_false; [exact Hk|exact Hh]|]. intros e r0 _. apply Hh.
    + destruct (mget m r c) eqn:E.
      * injection Hn as <- <-. split.
        -- right. cbn [w_prog w_held]. split; [exact Hk|]. rewrite held_nf; [eauto|]. intros e ->. eapply true_not_fail, Hk.
        -- intros e r1 ->. exfalso. eapply true_not_fail, Hk.
      * exfalso. apply mget_some_shape in Hr as (v' & Hv'). congruence.
Qed.
Lemma wok_steps {A} pref sh (ws : config A) m ws' m' : steps pref ws m ws' m' -> shape m = sh ->
  (forall w, In w ws -> wok sh w) -> shape m' = sh /\ forall w, In w ws' -> wok sh w.
Proof.
  induction 1 as [|ws m ws1 m1 ws2 m2 Hs _ IH]; intros Hm Hw; [auto|].
  destruct Hs as [ws m i w p' m' Hi Hl Hn]. apply IH.
  - rewrite (next_shape _ _ _ _ Hn). exact Hm.
  - intros v Hv. apply In_upd in Hv as [->|Hv]; [|auto]. eapply wok_next; [exact Hm|apply Hw; eapply nth_error_In; exact Hi|exact Hn].
Qed.
Lemma ok_wprog {A} sh (qu : list (nat * prog A)) : (forall i p, In (i, p) qu -> ok_task sh p) -> ok_task sh (wprog qu).
Proof.
  induction qu as [|[i p] qu IH]; intros H; cbn [wprog]; [constructor; exact I|].
  eapply wsafe_bind; [eapply H; left; reflexivity|]. intros a _.
  eapply wsafe_bind; [apply IH; intros j p' Hj; eapply H; right; exact Hj|]. intros; constructor; exact I.
Qed.
Lemma start_in {A} (tasks : list (prog A)) queues qu i p : Permutation (concat queues) (number tasks) -> In qu queues -> In (i, p) qu -> In p tasks.
Proof.
  intros Hp Hq Hi. assert (In (i, p) (concat queues)) as Hin by (apply in_concat; eauto).
  apply (Permutation_in _ Hp) in Hin. apply number_nth in Hin. eapply nth_error_In, Hin.
Qed.
Lemma loop_ok {A} pref (tasks : list (prog A)) m : Forall (ok_task (shape m)) tasks -> Forall (disc []) tasks ->
  forall queues ws m1, Permutation (concat queues) (number tasks) -> steps pref (start queues) m ws m1 ->
    (forall r, ~ poisons ws m1 r) /\ (finished ws -> forall w, In w ws -> w_held w = []).
Proof.
  intros Ht Hd queues ws m1 Hp Hs. rewrite Forall_forall in Ht, Hd. split.
  - destruct (wok_steps pref (shape m) _ _ _ _ Hs eq_refl) as [Hm Hw].
    { intros w Hw. unfold start in Hw. apply in_map_iff in Hw as (qu & <- & Hq). left. cbn. split; [|intros r []].
      apply ok_wprog. intros i p Hi. apply Ht. eapply start_in; eassumption. }
    intros r (w & e & m' & Hin & Hn & Hr). destruct (wok_next _ _ _ _ _ Hm (Hw w Hin) Hn) as [_ H]. exact (H e r eq_refl Hr).
  - intros Hf w Hw. destruct (linv_steps _ _ _ _ _ Hs) as [Hl _].
    { apply linv_start. intros qu i p Hq Hi. apply Hd. eapply start_in; eassumption. }
    apply (Hl w Hw), Hf, Hw.
Qed.

(** Server programs. *)
Fixpoint snp {A} (sh : list nat) (p : sprog A) : Prop :=
  match p with
  | SRet _ | SFail _ => True
  | SPar tasks k => Forall (ok_task sh) tasks /\ Forall (disc []) tasks /\ forall rs, snp sh (k rs)
  | SReduce n k => forall t, snp sh (k t)
  end.
Lemma steps_shape {A} pref (ws : config A) m ws' m' : steps pref ws m ws' m' -> shape m' = shape m.
Proof. induction 1 as [|ws m ws1 m1 ws2 m2 Hs _ IH]; [reflexivity|]. rewrite IH. destruct Hs. eapply next_shape; eassumption. Qed.
Lemma par_exec_shape {A} pref (tasks : list (prog A)) m o m' : par_exec pref tasks m o m' -> shape m' = shape m.
Proof. destruct 1; eapply steps_shape; eassumption. Qed.
Lemma sexec_shape {A} pref (p : sprog A) : forall m o m', sexec pref p m o m' -> shape m' = shape m.
Proof.
  induction p as [a|e|C tasks k IH|x k IH]; intros m o m' H; cbn [sexec] in H.
  - destruct H as [_ ->]. reflexivity.
  - destruct H as [_ ->]. reflexivity.
  - destruct H as [(rs & m1 & H1 & H2)|(e & H1 & _)]; [rewrite (IH _ _ _ _ H2)|]; eapply par_exec_shape; eassumption.
  - destruct H as (t & _ & H). eapply IH, H.
Qed.

Lemma snp_never {A} pref (p : sprog A) : forall m, snp (shape m) p -> never_poisons pref p m.
Proof.
  induction p as [a|e|C tasks k IH|x k IH]; intros m H; cbn [snp never_poisons] in *; auto.
  destruct H as (H1 & H2 & H3). split; [apply loop_ok; assumption|]. intros rs m1 Hx. apply IH. rewrite (par_exec_shape _ _ _ _ _ Hx). apply H3.
Qed.
Lemma snp_bind {A B} sh (p : sprog A) (f : A -> sprog B) : snp sh p -> (forall a, snp sh (f a)) -> snp sh (sbind p f).
Proof.
  intros Hp Hf. induction p as [a|e|C tasks k IH|x k IH]; cbn [sbind snp] in *; auto.
  destruct Hp as (H1 & H2 & H3). split; [exact H1|]. split; [exact H2|]. auto.
Qed.
Lemma snp_lift {A} sh (x : res A) : snp sh (slift x).
Proof. destruct x; exact I. Qed.
Lemma snp_spar {A} sh (tasks : list (prog A)) : Forall (fun p => ok_task sh p /\ disc [] p) tasks -> snp sh (spar tasks).
Proof. intros H. cbn. repeat split; auto; eapply Forall_impl; try exact H; intros p [H1 H2]; assumption. Qed.
Lemma snp_row_len sh r : snp sh (sone (row_len r)).
Proof.
  cbn. split; [constructor; [eapply ok_any, wsafe_row_len|constructor]|]. split; [constructor; [apply disc_row_len|constructor]|].
  intros [|? [|? ?]]; exact I.
Qed.
Lemma tid_tasks {A B} sh w (f : A -> prog B) l : (forall x, ok_task sh (f x) /\ disc [] (f x)) ->
  Forall (fun p => ok_task sh p /\ disc [] p) (map (tid w f) l).
Proof.
  intros H. apply Forall_forall. intros p Hp. apply in_map_iff in Hp as (x & <- & _). destruct w; [apply H|]. split; constructor.
Qed.

Section T.
Variables (sh : list nat) (fft : fftT) (cx : ctx) (neg_s : rgsw).
Ltac step_ := first [apply wsafe_buf_only|apply wsafe_cell_buf|apply wsafe_cell_only|apply wsafe_row_len|apply wsafe_lift].
Ltac go := eapply wsafe_bind; [step_|cbv beta; intros ? ?].
Lemma ok_level qy l : ok_task sh (level_task fft cx qy l).
Proof. unfold level_task, ok_task. go. eapply ok_any, wsafe_lift. Qed.
Lemma ok_select d r j : ok_task sh (select_task fft cx neg_s d r j).
Proof. unfold select_task, ok_task. go. go. go. constructor. exact I. Qed.
Lemma ok_update qy r jl : ok_task sh (update_task fft cx qy r jl).
Proof. unfold update_task, ok_task. go. go. go. go. apply wsafe_put. assumption. Qed.
Lemma ok_one_st qy r : ok_task sh (process_one_st fft cx neg_s qy r).
Proof.
  unfold process_one_st, ok_task. eapply wsafe_bind; [apply (wsafe_pmapM sh (fun _ _ => True)); intros x _; apply ok_level|]. intros dres _.
  go. go. go. apply (wsafe_pfoldM sh (fun _ _ => True) _ _ []); [exact I|]. intros pre s x _ _. unfold select_step. go. go. go. constructor. exact I.
Qed.
Lemma ok_update_st qy r ls : ok_task sh (update_db_st fft cx qy r ls).
Proof.
  unfold update_db_st, ok_task. go. eapply wsafe_bind; [apply (wsafe_pmapM sh (fun _ _ => True))|intros; constructor; exact I].
  intros x _. go. apply ok_update.
Qed.
Lemma ok_rw cols ql : ok_task sh (rw_task fft cx cols ql).
Proof. unfold rw_task. eapply ok_any, (wsafe_pmapM sh (fun _ _ => True)). intros x _. go. go. go. go. constructor. exact I. Qed.
Lemma ok_merge a b j : ok_task sh (merge_task fft a b j).
Proof. unfold merge_task, ok_task. go. go. apply wsafe_put. assumption. Qed.
Lemma ok_masked ls fl pos cell : wsafe sh (fun _ => inr_ sh (fst cell) (snd cell)) false (masked fft cx ls fl pos cell).
Proof. unfold masked. go. go. cbv zeta. go. go. constructor. assumption. Qed.
Lemma ok_correct positions ls fl : wsafe sh (fun _ => Forall (fun rc => inr_ sh (fst rc) (snd rc)) positions) false (correct_consistency fft cx positions ls fl).
Proof.
  unfold correct_consistency. go. destruct positions as [|p0 positions]; [discriminate|]. cbn in H. injection H as <-.
  eapply wsafe_bind; [apply (wsafe_pmapM sh (fun _ _ => True)); intros x _; eapply wsafe_imp; [|apply ok_masked]; auto|]. intros v1s _.
  go. cbv zeta. go. cbn [skipn].
  eapply wsafe_bind; [apply (wsafe_pfoldM sh (fun pre _ => Forall (fun rc => inr_ sh (fst rc) (snd rc)) pre) _ _ []); [constructor|]|].
  - intros pre s pos _ Hpre. eapply wsafe_bind; [apply ok_masked|]. cbv beta. intros t Ht. constructor.
    apply Forall_app. split; [exact Hpre|]. constructor; [exact Ht|constructor].
  - cbn [app]. intros acc Hacc. constructor. constructor; assumption.
Qed.
Lemma ok_consistency w nh ls fl i : ok_task sh (consistency_task w fft cx nh ls fl i).
Proof.
  unfold consistency_task, ok_task. eapply wsafe_bind; [apply (wsafe_pmapM sh (fun _ _ => True)); intros h _; go; eapply ok_any, wsafe_lift|].
  intros positions _. destruct w; [|constructor]. eapply wsafe_bind; [apply ok_correct|]. cbv beta. intros nd Hp.
  eapply wsafe_bind; [apply (wsafe_pmapM sh (fun _ _ => True))|intros; constructor; exact I].
  intros rc Hrc. apply wsafe_put. rewrite Forall_forall in Hp. apply Hp, Hrc.
Qed.
Lemma snp_one pool qy : snp sh (process_one pool fft cx neg_s qy).
Proof.
  unfold process_one, process_one_mt, update_db_mt. cbv zeta. repeat (apply snp_bind; [|intros ?]); try apply snp_lift; try apply snp_row_len; try exact I.
  - apply snp_spar, tid_tasks. intros l. split; [apply ok_level|apply disc_level].
  - apply snp_spar, tid_tasks. intros l. split; [apply ok_select|apply disc_select].
  - cbn. intros _. exact I.
  - apply snp_spar, tid_tasks. intros l. split; [apply ok_update|apply disc_update].
Qed.
Lemma snp_multi pool qs : snp sh (process_multi pool fft cx neg_s qs).
Proof.
  unfold process_multi. cbv zeta. repeat (apply snp_bind; [|intros ?]); try apply snp_row_len; try exact I.
  - apply snp_spar, tid_tasks. intros l. split; [apply ok_one_st|apply disc_one_st].
  - apply snp_spar, tid_tasks. intros l. split; [apply ok_rw|apply disc_rw].
  - cbn. intros _. exact I.
  - cbn. intros _. exact I.
  - apply snp_spar, tid_tasks. intros l. split; [apply ok_merge|apply disc_merge].
Qed.
Lemma snp_batch pool rows qs nh : snp sh (process_batch pool fft cx neg_s rows qs nh).
Proof.
  unfold process_batch. cbv zeta. repeat (apply snp_bind; [|intros ?]); try apply snp_lift; try apply snp_row_len.
  - apply snp_spar, tid_tasks. intros l. split; [apply ok_one_st|apply disc_one_st].
  - apply snp_spar, tid_tasks. intros l. split; [apply ok_update_st|apply disc_update_st].
  - destruct (nh_h_count nh =? 0); [exact I|]. apply snp_bind; [|intros; exact I].
    apply snp_spar, Forall_forall. intros p Hp. apply in_map_iff in Hp as (x & <- & _). split; [apply ok_consistency|apply disc_consistency].
Qed.
End T.

(** One worker can run every loop. *)
Lemma wprog_fst {A} (qu : list (nat * prog A)) : forall m rs m', run (wprog qu) m = (Ok rs, m') -> map fst rs = map fst qu.
Proof.
  induction qu as [|[i p] qu IH]; intros m rs m'; cbn [wprog].
  - cbn. intros H; injection H as <- _. reflexivity.
  - rewrite run_bind. destruct (run p m) as [[a|e] m1]; [|discriminate]. rewrite run_bind.
    destruct (run (wprog qu) m1) as [[rest|e] m2] eqn:E; [|discriminate]. cbn. intros H; injection H as <- _. cbn. f_equal. eapply IH, E.
Qed.
Lemma number_map_snd {A} (rs : list (nat * A)) : map fst rs = seq 0 (length rs) -> rs = number (map snd rs).
Proof.
  unfold number. rewrite map_length. generalize 0. induction rs as [|[i x] rs IH]; intros a H; [reflexivity|].
  cbn in *. injection H as -> H. f_equal. apply IH, H.
Qed.
Lemma alone_steps {A} pref (ws : config A) m ws' m' : steps pref ws m ws' m' -> forall w, ws = [w] ->
  exists w', ws' = [w'] /\ run (w_prog w) m = run (w_prog w') m'.
Proof.
  induction 1 as [ws m|ws m ws1 m1 ws2 m2 Hs _ IH]; intros w ->; [eauto|].
  inversion Hs as [? ? i w0 p' m' Hi Hl Hn]; subst. destruct i as [|i]; [|destruct i; discriminate]. injection Hi as <-.
  destruct (IH _ eq_refl) as (w' & -> & E). exists w'. split; [reflexivity|]. rewrite (run_next _ _ _ _ Hn). exact E.
Qed.
Lemma par_exec_some {A} pref (tasks : list (prog A)) m : Forall (disc []) tasks -> exists o m', par_exec pref tasks m o m'.
Proof.
  intros Hd. rewrite Forall_forall in Hd.
  destruct (can_finish pref (start [number tasks]) m) as (ws & m' & Hst & Hfin).
  { apply linv_start. intros qu i p [<-|[]] Hi. apply Hd. apply number_nth in Hi. eapply nth_error_In; exact Hi. }
  assert (Permutation (concat [number tasks]) (number tasks)) as Hperm by (cbn; rewrite app_nil_r; reflexivity).
  destruct (alone_steps _ _ _ _ _ Hst _ eq_refl) as (w & -> & E). cbn [w_prog] in E.
  pose proof (Hfin w (or_introl eq_refl)) as Hr. destruct (w_prog w) as [rs|e|l k|l k|r k|r c k|r c v k] eqn:Ep; cbn in Hr; try congruence.
  - exists (Ok (map snd rs)), m'. eapply (Par_ok pref tasks m [number tasks] [w] [rs]); [exact Hperm|exact Hst|cbn; rewrite Ep; reflexivity|].
    cbn. rewrite app_nil_r. rewrite <- number_map_snd; [reflexivity|]. cbn in E. pose proof (wprog_fst _ _ _ _ E) as H.
    rewrite number_fst in H. rewrite H. f_equal. apply (f_equal (@length nat)) in H. rewrite map_length, seq_length in H. congruence.
  - exists (Panic e), m'. eapply (Par_panic pref tasks m [number tasks] [w]); [exact Hperm|exact Hst|exact Hfin|left; reflexivity|exact Ep].
Qed.
Lemma snp_realisable {A} sh (p : sprog A) : snp sh p -> forall m, realisable p m.
Proof.
  induction p as [a|e|B tasks k IH|x k IH]; intros Hd m pref; cbn [snp sexec] in *.
  - eauto.
  - eauto.
  - destruct Hd as (_ & Hl & Hk). destruct (par_exec_some pref tasks m Hl) as ([rs|e] & m' & Hx).
    + destruct (IH rs (Hk rs) m' pref) as (r & m2 & H). exists r, m2. left. eauto.
    + exists (Panic e), m'. right. eauto.
  - destruct (IH (left_tree x) (Hd _) m pref) as (r & m2 & H). exists r, m2, (left_tree x). split; [apply items_left|exact H].
Qed.

Lemma snp_call sh pool fft sv c : snp sh (call_prog pool fft sv c).
Proof.
  destruct c as [qy|qs|qs nh]; cbn [call_prog]; [apply snp_bind; [apply snp_one|intros; exact I]|apply snp_multi|apply snp_batch].
Qed.
Lemma made_fits qy cols : fits qy cols -> made_for cols qy.
Proof. intros [H1 H2]. exists (length (q_a qy)). split; [destruct (q_a qy); [congruence|cbn; lia]|auto]. Qed.

(** Rectangular databases. *)
Definition rect (rows cols : nat) (m : mem) : Prop := shape m = repeat cols rows.
Lemma misfit_rejected pool pref fft sv c r sv' rows cols : fft_size (srv_cx sv) fft -> 0 < rows -> rect rows cols (srv_data sv) -> misfit rows cols c ->
  server_exec pref sv (call_prog pool fft sv c) r sv' -> (exists e, r = Panic e) /\ sv' = sv.
Proof.
  intros Hf H0 Hr Hm (m' & Hx & ->).
  assert (length (srv_data sv) = rows) as Hlen. { unfold rect, shape in Hr. apply (f_equal (@length nat)) in Hr. rewrite map_length, repeat_length in Hr. exact Hr. }
  assert (forall i, i < rows -> nth_error (shape (srv_data sv)) i = Some cols) as Hrow.
  { intros i Hi. rewrite Hr. apply nth_error_repeat. exact Hi. }
  assert ((exists e, r = Panic e) /\ m' = srv_data sv) as [HP ->]; [|split; [exact HP|destruct sv; reflexivity]].
  destruct c as [qy|qs|qs nh]; cbn [call_prog misfit] in *.
  - apply sexec_bind in Hx as [(e & -> & Hx)|(a & m1 & Hx & _)].
    + split; [eauto|]. apply (one_bad pool fft (srv_cx sv) (srv_neg sv) Hf pref qy _ _ _ cols (Hrow 0 H0)) in Hx as [_ Hx]; [exact Hx|]. intros Hfit. apply Hm, made_fits, Hfit.
    + exfalso. eapply (one_bad pool fft (srv_cx sv) (srv_neg sv) Hf pref qy _ _ _ cols (Hrow 0 H0)) in Hx as [[e He] _]; [discriminate|]. intros Hfit. apply Hm, made_fits, Hfit.
  - destruct Hm as (qy & Hq & Hw). eapply (multi_bad pool fft (srv_cx sv) (srv_neg sv) Hf pref qs _ _ _ cols (Hrow 0 H0)); [|exact Hx].
    exists qy. split; [exact Hq|]. intros Hfit. apply Hw, made_fits, Hfit.
  - unfold srv_rows in Hx. destruct (Nat.eq_dec (length qs) rows) as [El|Nl].
    + destruct Hm as [Hm|(qy & Hq & Hw)]; [contradiction|]. apply In_nth_error in Hq as (i & Hi).
      assert (i < rows) as Hlt by (rewrite <- El; apply nth_error_Some; congruence).
      rewrite Hlen in Hx. eapply (batch_bad pool fft (srv_cx sv) (srv_neg sv) Hf pref rows qs nh _ _ _ i qy cols); eauto. intros Hfit. apply Hw, made_fits, Hfit.
    + unfold process_batch in Hx. rewrite Hlen in Hx. unfold rassert in Hx. destruct (Nat.eqb_spec (length qs) rows); [contradiction|]. cbn in Hx. destruct Hx as [-> ->]. eauto.
Qed.
Lemma server_exec_shape {A} pref sv (p : sprog A) r sv' : server_exec pref sv p r sv' -> shape (srv_data sv') = shape (srv_data sv) /\ srv_cx sv' = srv_cx sv.
Proof. intros (m & Hx & ->). cbn. split; [eapply sexec_shape, Hx|reflexivity]. Qed.

Definition misfits (rows cols : nat) (l : list attempt) : Prop :=
  forall c, In (Misfit c) l -> misfit rows cols c.
Lemma attempts_ok pool pref fft cl nh dm t rows cols : 0 < rows -> forall l j sv r, misfits rows cols l -> fft_size (srv_cx sv) fft -> rect rows cols (srv_data sv) ->
  attempts_exec pool pref fft cl nh dm t j sv l r <-> mixed_exec pool pref fft cl nh dm t j sv (proper l) r.
Proof.
  intros H0 l. induction l as [|[st|c] l IH]; intros j sv r Hl Hf Hr; cbn [proper flat_map app].
  - split; inversion 1; constructor.
  - assert (misfits rows cols l) as Hl' by (intros c Hc; apply Hl; right; exact Hc). split; intros H.
    + inversion H; subst; [eapply ME_ask; eassumption|eapply ME_panic; eassumption|]. eapply ME_cons; [eassumption|eassumption|].
      match goal with X : server_exec _ _ _ _ _ |- _ => destruct (server_exec_shape _ _ _ _ _ X) as [E1 E2] end. apply IH; auto; [rewrite E2; exact Hf|unfold rect; rewrite E1; exact Hr].
    + inversion H; subst; [eapply AE_ask; eassumption|eapply AE_panic; eassumption|]. eapply AE_cons; [eassumption|eassumption|].
      match goal with X : server_exec _ _ _ _ _ |- _ => destruct (server_exec_shape _ _ _ _ _ X) as [E1 E2] end. apply IH; auto; [rewrite E2; exact Hf|unfold rect; rewrite E1; exact Hr].
  - assert (misfits rows cols l) as Hl' by (intros c' Hc; apply Hl; right; exact Hc).
    assert (misfit rows cols c) as Hc by (apply Hl; left; reflexivity). split; intros H.
    + inversion H; subst. match goal with X : server_exec _ _ _ _ _ |- _ => destruct (misfit_rejected _ _ _ _ _ _ _ _ _ Hf H0 Hr Hc X) as [_ ->] end. apply IH; auto.
    + destruct (snp_realisable [] _ (snp_call [] pool fft sv c) (srv_data sv) pref) as (r0 & m' & Hx).
      assert (server_exec pref sv (call_prog pool fft sv c) r0 {| srv_data := m'; srv_neg := srv_neg sv; srv_cx := srv_cx sv |}) as Hs by (exists m'; auto).
      destruct (misfit_rejected _ _ _ _ _ _ _ _ _ Hf H0 Hr Hc Hs) as [_ E]. rewrite E in Hs.
      eapply AE_misfit; [exact Hs|]. apply IH; auto.
Qed.

Definition bmisfits (rows cols : nat) (l : list battempt) : Prop :=
  forall c, In (BMisfit c) l -> misfit rows cols c.
Lemma battempts_ok pool pref fft cl nh dm t rows cols : 0 < rows -> forall l j sv r, bmisfits rows cols l -> fft_size (srv_cx sv) fft -> rect rows cols (srv_data sv) ->
  battempts_exec pool pref fft cl nh dm t j sv l r <-> batch_session_exec pool pref fft cl nh dm t j sv (bproper l) r.
Proof.
  intros H0 l. induction l as [|[st|c] l IH]; intros j sv r Hl Hf Hr; cbn [bproper flat_map app].
  - split; inversion 1; constructor.
  - assert (bmisfits rows cols l) as Hl' by (intros c Hc; apply Hl; right; exact Hc). split; intros H.
    + inversion H; subst; [eapply BE_ask; eassumption|eapply BE_panic; eassumption|]. eapply BE_cons; [eassumption|eassumption|].
      match goal with X : server_exec _ _ _ _ _ |- _ => destruct (server_exec_shape _ _ _ _ _ X) as [E1 E2] end. apply IH; auto; [rewrite E2; exact Hf|unfold rect; rewrite E1; exact Hr].
    + inversion H; subst; [eapply BA_ask; eassumption|eapply BA_panic; eassumption|]. eapply BA_cons; [eassumption|eassumption|].
      match goal with X : server_exec _ _ _ _ _ |- _ => destruct (server_exec_shape _ _ _ _ _ X) as [E1 E2] end. apply IH; auto; [rewrite E2; exact Hf|unfold rect; rewrite E1; exact Hr].
  - assert (bmisfits rows cols l) as Hl' by (intros c' Hc; apply Hl; right; exact Hc).
    assert (misfit rows cols c) as Hc by (apply Hl; left; reflexivity). split; intros H.
    + inversion H; subst. match goal with X : server_exec _ _ _ _ _ |- _ => destruct (misfit_rejected _ _ _ _ _ _ _ _ _ Hf H0 Hr Hc X) as [_ ->] end. apply IH; auto.
    + destruct (snp_realisable [] _ (snp_call [] pool fft sv c) (srv_data sv) pref) as (r0 & m' & Hx).
      assert (server_exec pref sv (call_prog pool fft sv c) r0 {| srv_data := m'; srv_neg := srv_neg sv; srv_cx := srv_cx sv |}) as Hs by (exists m'; auto).
      destruct (misfit_rejected _ _ _ _ _ _ _ _ _ Hf H0 Hr Hc Hs) as [_ E]. rewrite E in Hs.
      eapply BA_misfit; [exact Hs|]. apply IH; auto.
Qed.
