(** * Lock discipline: no deadlock, no race, termination; server programs *)
From Verif Require Import MBase MPoly MRlwe MSched PfSched PfSched2.
From Coq Require Import Permutation.
Local Open Scope nat_scope.

(** [disc h p]: holding the locks [h], [p] takes a row lock only when it holds nothing, the buffer only
    when it does not hold it, releases in the opposite order, accesses a row only under a lock of that
    row (a store under the write lock), and returns holding nothing. *)
Inductive disc {A} : list lock -> prog A -> Prop :=
| D_ret a : disc [] (PRet a)
| D_fail h e : disc h (PFail e)
| D_read r k : disc [LRead r] k -> disc [] (PLock (LRead r) k)
| D_write r k : disc [LWrite r] k -> disc [] (PLock (LWrite r) k)
| D_buf h k : ~ In LBuf h -> disc (LBuf :: h) k -> disc h (PLock LBuf k)
| D_unlock l h k : disc h k -> disc (l :: h) (PUnlock l k)
| D_len h r k : In (LRead r) h \/ In (LWrite r) h -> (forall x, disc h (k x)) -> disc h (PLen r k)
| D_load h r c k : In (LRead r) h \/ In (LWrite r) h -> (forall v, disc h (k v)) -> disc h (PLoad r c k)
| D_store h r c v k : In (LWrite r) h -> disc h k -> disc h (PStore r c v k).

Lemma disc_bind {A B} h (p : prog A) (f : A -> prog B) : disc h p -> (forall a, disc [] (f a)) -> disc h (pbind p f).
Proof. intros Hp Hf. induction Hp; cbn; try (constructor; auto); auto. Qed.
Lemma disc_plift {A} (x : res A) : disc [] (plift x).
Proof. destruct x; constructor. Qed.
Lemma disc_pmapM {A B} (f : A -> prog B) l : (forall x, disc [] (f x)) -> disc [] (pmapM f l).
Proof. intros H. induction l as [|x l IH]; cbn; [constructor|]. apply disc_bind; [apply H|]. intros y. apply disc_bind; [exact IH|]. intros; constructor. Qed.
Lemma disc_pfoldM {A S} (f : S -> A -> prog S) l : (forall s x, disc [] (f s x)) -> forall s, disc [] (pfoldM f l s).
Proof. intros H. induction l as [|x l IH]; cbn; intros s; [constructor|]. apply disc_bind; [apply H|]. exact IH. Qed.
Lemma disc_wprog {A} (qu : list (nat * prog A)) : (forall i p, In (i, p) qu -> disc [] p) -> disc [] (wprog qu).
Proof.
  induction qu as [|[i p] qu IH]; intros H; cbn; [constructor|]. apply disc_bind; [eapply H; left; reflexivity|]. intros a.
  apply disc_bind; [apply IH; intros j q Hj; eapply H; right; exact Hj|]. intros; constructor.
Qed.

Lemma disc_next {A} h (p : prog A) m p' m' : disc h p -> next p m = Some (p', m') -> disc (held_after p p' h) p'.
Proof.
  intros H E. destruct H; cbn in E; try discriminate; injection E as E; try (subst p' m').
  - unfold held_after. destruct k; cbn; try assumption; constructor.
  - unfold held_after. destruct k; cbn; try assumption; constructor.
  - unfold held_after. destruct k; cbn; try assumption; constructor.
  - unfold held_after. destruct k; cbn; try assumption; constructor.
  - destruct (mlen m r); [|constructor]. specialize (H0 n). unfold held_after. destruct (k n); cbn; try assumption; constructor.
  - destruct (mget m r c); [|constructor]. specialize (H0 r0). unfold held_after. destruct (k r0); cbn; try assumption; constructor.
  - destruct (mget m r c); injection E as <- <-; [|constructor]. unfold held_after. destruct k; cbn; try assumption; constructor.
Qed.

Lemma disc_ret {A} h (a : A) : disc h (PRet a) -> h = [].
Proof. inversion 1; reflexivity. Qed.

(** Invariant of reachable configurations. *)
Definition conflict (l l' : lock) : Prop :=
  match l, l' with
  | LWrite r, LWrite r' | LWrite r, LRead r' | LRead r, LWrite r' => r = r'
  | _, _ => False
  end.
Definition linv {A} (ws : config A) : Prop :=
  (forall w, In w ws -> disc (w_held w) (w_prog w) /\ (result (w_prog w) <> None -> w_held w = [])) /\
  (forall i j wi wj l l', i <> j -> nth_error ws i = Some wi -> nth_error ws j = Some wj ->
     In l (w_held wi) -> In l' (w_held wj) -> ~ conflict l l').

Lemma In_upd {B} (l : list B) i x y : In y (upd l i x) -> y = x \/ In y l.
Proof.
  revert i; induction l as [|z l IH]; intros [|i] H; cbn in *; auto.
  - destruct H as [<-|H]; auto.
  - destruct H as [<-|H]; auto. destruct (IH i H); auto.
Qed.
Lemma held_after_In {A} (p p' : prog A) h l : In l (held_after p p' h) -> In l h \/ exists k, p = PLock l k.
Proof.
  assert (In l (match p with PLock l _ => l :: h | PUnlock _ _ => tl h | _ => h end) -> In l h \/ exists k, p = PLock l k) as H.
  { destruct p; cbn; auto. - intros [<-|H]; eauto. - destruct h; cbn; auto. }
  unfold held_after. destruct p'; auto. intros [].
Qed.
Lemma linv_step {A} pref (ws : config A) m ws' m' : linv ws -> step pref ws m ws' m' -> linv ws'.
Proof.
  intros [Hd Hx] Hstep. inversion Hstep as [? ? i w p' ? Hw Hlk Hn]; subst.
  destruct (Hd w (nth_error_In _ _ Hw)) as [Hdw Hrw].
  pose proof (disc_next _ _ _ _ _ Hdw Hn) as Hd'. split.
  - intros v Hv. apply In_upd in Hv as [->|Hv]; [|apply Hd; exact Hv]. cbn [w_prog w_held]. split; [exact Hd'|].
    intros Hr. destruct p'; cbn in Hr; try congruence; [eapply disc_ret; exact Hd'|reflexivity].
  - assert (forall j wj l l', i <> j -> nth_error ws j = Some wj -> In l (held_after (w_prog w) p' (w_held w)) -> In l' (w_held wj) -> ~ conflict l l' /\ ~ conflict l' l) as Hnew.
    { intros j wj l l' Hne Hj Hl Hl'. apply held_after_In in Hl as [Hl|[k Hk]].
      - split; intros C; [exact (Hx i j w wj l l' Hne Hw Hj Hl Hl' C)|exact (Hx j i wj w l' l (Nat.neq_sym _ _ Hne) Hj Hw Hl' Hl C)].
      - specialize (Hlk l k Hk). pose proof (nth_error_In _ _ Hj) as Hin. destruct l as [r|r|]; cbn in Hlk.
        + destruct Hlk as [Hlk _]. specialize (Hlk wj Hin). destruct l' as [r'|r'|]; cbn; split; try tauto; intros ->; contradiction.
        + destruct (Hlk wj Hin) as [H1 H2]. destruct l' as [r'|r'|]; cbn; split; try tauto; intros ->; contradiction.
        + destruct l' as [r'|r'|]; cbn; split; tauto. }
    intros j1 j2 w1 w2 l l' Hne H1 H2 Hl Hl'. rewrite nth_error_upd in H1, H2.
    destruct (Nat.eqb_spec i j1) as [<-|N1], (Nat.eqb_spec i j2) as [<-|N2].
    + contradiction.
    + rewrite Hw in H1. injection H1 as <-. cbn [w_held] in Hl. exact (proj1 (Hnew j2 w2 l l' N2 H2 Hl Hl')).
    + rewrite Hw in H2. injection H2 as <-. cbn [w_held] in Hl'. exact (proj2 (Hnew j1 w1 l' l N1 H1 Hl' Hl)).
    + eapply Hx; [exact Hne|exact H1|exact H2|exact Hl|exact Hl'].
Qed.
Lemma linv_steps {A} pref (ws : config A) m ws' m' : steps pref ws m ws' m' -> linv ws -> linv ws'.
Proof. induction 1; auto. intros Hl. apply IHsteps. eapply linv_step; eassumption. Qed.
Lemma linv_start {A} (queues : list (list (nat * prog A))) :
  (forall qu i p, In qu queues -> In (i, p) qu -> disc [] p) -> linv (start queues).
Proof.
  intros H. unfold start. split.
  - intros w Hw. apply in_map_iff in Hw as (qu & <- & Hq). cbn. split; [apply disc_wprog; intros i p Hi; eapply H; eassumption|reflexivity].
  - intros i j wi wj l l' _ Hi _ Hl. rewrite nth_error_map in Hi. destruct (nth_error queues i); [|discriminate]. injection Hi as <-. destruct Hl.
Qed.

(** Progress: some worker can move unless all are finished. *)
Lemma exists_dec {B} (Q : B -> Prop) l : (forall x, Q x \/ ~ Q x) -> (exists x, In x l /\ Q x) \/ (forall x, In x l -> ~ Q x).
Proof.
  intros Hd. induction l as [|x l [(y & Hy & Qy)|IH]]; [right; intros ? []|left; exists y; split; [right; exact Hy|exact Qy]|].
  destruct (Hd x) as [Qx|Nx]; [left; exists x; split; [left; reflexivity|exact Qx]|].
  right. intros y [<-|Hy]; auto.
Qed.
Lemma make_step {A} pref (ws : config A) m w : In w ws -> result (w_prog w) = None ->
  (forall i l k, nth_error ws i = Some w -> w_prog w = PLock l k -> may_lock pref ws i l) -> exists ws' m', step pref ws m ws' m'.
Proof.
  intros Hin Hres Hlk. apply In_nth_error in Hin as (i & Hi).
  destruct (next (w_prog w) m) as [[p' m']|] eqn:E; [|destruct (w_prog w); cbn in *; discriminate].
  eexists _, m'. econstructor; [exact Hi| |exact E]. intros l k Hk. eapply Hlk; eassumption.
Qed.
Lemma progress {A} pref (ws : config A) m : linv ws -> finished ws \/ exists ws' m', step pref ws m ws' m'.
Proof.
  intros [Hd Hx].
  (* a worker not waiting for a row lock *)
  destruct (exists_dec (fun w : worker A => result (w_prog w) = None /\ forall r k, w_prog w <> PLock (LRead r) k /\ w_prog w <> PLock (LWrite r) k) ws) as [(w & Hin & Hr & Hnl)|H1].
  { intros w. destruct (w_prog w) as [a|e|l k|l k|r k|r c k|r c v k]; cbn; try (right; intros [H _]; discriminate);
      try (left; split; [reflexivity|split; discriminate]).
    destruct l as [r|r|]; [right; intros [_ H]; destruct (H r k); congruence|right; intros [_ H]; destruct (H r k); congruence|left; split; [reflexivity|split; discriminate]]. }
  { right. apply (make_step pref ws m w Hin Hr). intros i l k Hi Hp. destruct (Hnl 0 k) as [_ _]. destruct l as [r|r|].
    - destruct (Hnl r k); congruence. - destruct (Hnl r k); congruence.
    - cbn. intros w' Hw' Hb. rewrite Hi in Hw'. injection Hw' as <-. destruct (Hd w Hin) as [Hdw _]. rewrite Hp in Hdw. inversion Hdw; subst. contradiction. }
  (* so every unfinished worker waits for a row lock and holds nothing *)
  assert (forall w, In w ws -> w_held w = []) as Hempty.
  { intros w Hin. destruct (Hd w Hin) as [Hdw Hrw]. destruct (result (w_prog w)) eqn:Er; [apply Hrw; discriminate|].
    destruct (w_prog w) as [a|e|l k|l k|r k|r c k|r c v k] eqn:Ep; cbn in Er; try discriminate;
      try (exfalso; apply (H1 w Hin); rewrite Ep; split; [reflexivity|split; discriminate]).
    destruct l as [r|r|]; [inversion Hdw; reflexivity|inversion Hdw; reflexivity|].
    exfalso. apply (H1 w Hin). rewrite Ep. split; [reflexivity|split; discriminate]. }
  destruct (exists_dec (fun w : worker A => exists r k, w_prog w = PLock (LWrite r) k) ws) as [(w & Hin & r & k & Hp)|H2].
  { intros w. destruct (w_prog w) as [a|e|l k|l k|r k|r c k|r c v k]; try (right; intros (r' & k' & H); discriminate).
    destruct l as [r|r|]; [right; intros (r' & k' & H); discriminate|left; eauto|right; intros (r' & k' & H); discriminate]. }
  { right. apply (make_step pref ws m w Hin); [rewrite Hp; reflexivity|]. intros i l k' Hi Hk'. rewrite Hp in Hk'. injection Hk' as <- <-.
    cbn. intros w' Hw'. rewrite (Hempty w' Hw'). cbn. auto. }
  destruct (exists_dec (fun w : worker A => result (w_prog w) = None) ws) as [(w & Hin & Hr)|H3].
  { intros w. destruct (result (w_prog w)); [right; discriminate|left; reflexivity]. }
  { right. apply (make_step pref ws m w Hin Hr). intros i l k Hi Hp. destruct l as [r|r|]; cbn.
    - split; [intros w' Hw'; rewrite (Hempty w' Hw'); auto|]. intros _ w' Hw' [k' Hk']. apply (H2 w' Hw'). eauto.
    - intros w' Hw'. rewrite (Hempty w' Hw'). cbn. auto.
    - intros w' Hw'. rewrite (Hempty w'); [auto|]. eapply nth_error_In; exact Hw'. }
  left. intros w Hin Hr. exact (H3 w Hin Hr).
Qed.

(** Termination: no infinite execution. *)
Inductive smaller {A} : prog A -> prog A -> Prop :=
| Sm_next p p' m m' : next p m = Some (p', m') -> smaller p' p.
Lemma smaller_wf {A} : well_founded (@smaller A).
Proof.
  assert (forall (p : prog A), Acc smaller p) as H; [|exact H].
  assert (forall (e : panic), Acc (@smaller A) (PFail e)) as Hf.
  { intros e. constructor. intros p' H. inversion H as [? ? m m' E]; subst. discriminate. }
  induction p as [a|e|l k IH|l k IH|r k IH|r c k IH|r c v k IH]; constructor; intros p' H0; inversion H0 as [? ? m m' E]; clear H0; cbn in E; try discriminate.
  - injection E as <- <-. exact IH.
  - injection E as <- <-. exact IH.
  - injection E as <- <-. destruct (mlen m r); auto.
  - injection E as <- <-. destruct (mget m r c); auto.
  - destruct (mget m r c); injection E as <- <-; auto.
Qed.
Definition step_rel {A} (pref : bool) (c' c : config A * mem) : Prop := step pref (fst c) (snd c) (fst c') (snd c').
Lemma config_acc {A} pref (ws : config A) : forall m, Acc (step_rel pref) (ws, m).
Proof.
  (* lexicographic on lists of fixed length: induction on the list of programs *)
  assert (forall (ps : list (prog A)), forall ws m, map (fun w => w_prog w) ws = ps -> Acc (step_rel pref) (ws, m)) as H; [|intros m; eapply H; reflexivity].
  assert (forall n (ps : list (prog A)), length ps = n -> Acc (fun ps' ps : list (prog A) => exists i p p', nth_error ps i = Some p /\ smaller p' p /\ ps' = upd ps i p') ps) as Hl.
  { induction n as [|n IHn]; intros ps Hps.
    - destruct ps; [|discriminate]. constructor. intros ps' (i & p & p' & Hi & _). destruct i; discriminate.
    - destruct ps as [|p ps]; [discriminate|]. injection Hps as Hps.
      revert ps Hps. induction p as [p IHp] using (well_founded_induction smaller_wf). intros ps Hps.
      pose proof (IHn ps Hps) as Hacc. revert Hps. induction Hacc as [ps Hacc' IHacc]. intros Hps. constructor.
      intros ps' (i & p1 & p1' & Hi & Hs & ->). destruct i as [|i]; cbn in *.
      + injection Hi as <-. apply IHp; assumption.
      + apply IHacc; [exists i, p1, p1'; auto|]. rewrite upd_length. exact Hps. }
  intros ps. pose proof (Hl (length ps) ps eq_refl) as Hacc. clear Hl. induction Hacc as [ps _ IH]. intros ws0 m Hws. constructor.
  intros [ws' m'] Hs. unfold step_rel in Hs. cbn in Hs. inversion Hs as [? ? i w p' ? Hw Hlk Hn]; subst.
  eapply IH; [|reflexivity]. exists i, (w_prog w), p'. split; [now rewrite nth_error_map, Hw|]. split; [econstructor; exact Hn|].
  clear. revert i; induction ws0 as [|x ws0 IH]; intros [|i]; cbn; f_equal; auto.
Qed.

(** From every reachable configuration some execution finishes. *)
Lemma can_finish {A} pref (ws : config A) m : linv ws -> exists ws' m', steps pref ws m ws' m' /\ finished ws'.
Proof.
  pose proof (config_acc pref ws m) as Hacc. remember (ws, m) as c eqn:Hc. revert ws m Hc.
  induction Hacc as [c _ IH]. intros ws m -> Hl. destruct (progress pref ws m Hl) as [Hf|(ws1 & m1 & Hs)].
  - exists ws, m. split; [constructor|exact Hf].
  - destruct (IH (ws1, m1) Hs ws1 m1 eq_refl (linv_step _ _ _ _ _ Hl Hs)) as (ws2 & m2 & H1 & H2).
    exists ws2, m2. split; [econstructor; eassumption|exact H2].
Qed.

(** No data race: two workers never touch the same row at the same time if one of them stores. *)
Definition touches {A} (p : prog A) (r : nat) : Prop :=
  match p with PLen r' _ | PLoad r' _ _ | PStore r' _ _ _ => r' = r | _ => False end.
Definition stores {A} (p : prog A) (r : nat) : Prop := match p with PStore r' _ _ _ => r' = r | _ => False end.
Lemma no_race {A} (ws : config A) i j wi wj r : linv ws -> i <> j -> nth_error ws i = Some wi -> nth_error ws j = Some wj ->
  stores (w_prog wi) r -> ~ touches (w_prog wj) r.
Proof.
  intros [Hd Hx] Hne Hi Hj Hs Ht.
  destruct (Hd wi (nth_error_In _ _ Hi)) as [Di _]. destruct (Hd wj (nth_error_In _ _ Hj)) as [Dj _].
  assert (In (LWrite r) (w_held wi)) as Hw.
  { destruct (w_prog wi); cbn in Hs; try contradiction. subst. inversion Di; assumption. }
  assert (exists l, In l (w_held wj) /\ (l = LRead r \/ l = LWrite r)) as (l & Hl & Hl').
  { destruct (w_prog wj); cbn in Ht; try contradiction; subst; inversion Dj; subst; [| |eauto];
      match goal with H : _ \/ _ |- _ => destruct H; eauto end. }
  apply (Hx i j wi wj (LWrite r) l Hne Hi Hj Hw Hl). destruct Hl' as [-> | ->]; reflexivity.
Qed.

(** ** Parallel loops can always be completed *)
Lemma par_exec_exists {A} pref sh (tasks : list (prog A)) m0 rs m1 : shape m0 = sh -> separable sh tasks ->
  Forall (disc []) tasks -> par_run tasks m0 = (Ok rs, m1) -> par_exec pref tasks m0 (Ok rs) m1.
Proof.
  intros Hm0 Hsep Hdisc Hrun. pose proof (par_run_ok_solo sh tasks m0 Hm0 Hsep) as [Hso _].
  destruct (Hso rs m1 Hrun) as [Hl Hv]. rewrite Forall_forall in Hdisc.
  destruct (can_finish pref (start [number tasks]) m0) as (ws & m' & Hst & Hfin).
  { apply linv_start. intros qu i p [<-|[]] Hi. apply Hdisc. apply number_nth in Hi. eapply nth_error_In; exact Hi. }
  assert (Permutation (concat [number tasks]) (number tasks)) as Hperm by (cbn; rewrite app_nil_r; reflexivity).
  pose proof Hsep as (Rd & Wr & dec & sep & Hacc).
  destruct (finished_state pref sh tasks m0 Hm0 Rd Wr dec sep Hacc _ Hperm ws m' Hst) as (Hlw & Hs & Hres & Hmem).
  destruct ws as [|w [|? ?]]; try discriminate Hlw.
  destruct (result (w_prog w)) as [r|] eqn:Er; [|exfalso; eapply Hfin; [left; reflexivity|exact Er]].
  pose proof (Hres 0 w (number tasks) r eq_refl eq_refl Er) as Hr.
  assert (m' = m1) as ->.
  { rewrite Hmem, Hrun; [reflexivity|exact Hfin|]. intros i p Hi. destruct (Hv i p Hi) as (a & Ha & _). eauto. }
  rewrite par_run_wprog in Hrun. destruct (run (wprog (number tasks)) m0) as [[rs2|e] m2] eqn:Ew; [|discriminate]. injection Hrun as <- <-.
  cbn in Hr. subst r. destruct (w_prog w) as [a|e|l k|l k|r k|r c k|r c v k] eqn:Ep; cbn in Er; try discriminate. injection Er as ->.
  eapply (Par_ok pref tasks m0 [number tasks] [w] [rs2] (map snd rs2) m2 Hperm Hst).
  - cbn. rewrite Ep. reflexivity.
  - cbn. rewrite app_nil_r.
    assert (qacc sh Rd Wr (number tasks)) as Hq by (apply number_qacc; exact Hacc).
    destruct (wprog_ok sh Rd Wr sep m0 Hm0 (number tasks) m0 Hq Hm0) as (rs3 & m3 & E3 & HF & _).
    { intros j q _ r' c' _; reflexivity. } { intros i p Hi. apply number_nth in Hi. destruct (Hv i p Hi) as (a & Ha & _). eauto. }
    rewrite Ew in E3. injection E3 as <- _.
    assert (number (map snd rs2) = rs2) as ->; [|reflexivity].
    unfold number in *. rewrite map_length.
    clear - HF. revert HF. generalize 0. revert rs2.
    induction tasks as [|p tasks IH]; intros rs2 a HF; cbn in *; inversion HF as [|? [i x] ? rs3 [H1 H2] HF3]; subst; [reflexivity|].
    cbn in *. subst. f_equal. apply IH. exact HF3.
Qed.

(** ** Reductions *)
Section Red.
Context {A : Type}.
Variables (op : A -> A -> A) (id : A) (Ok : A -> Prop).
Hypothesis Hid : Ok id.
Hypothesis Hop : forall x y, Ok x -> Ok y -> Ok (op x y).
Hypothesis Hassoc : forall x y z, Ok x -> Ok y -> Ok z -> op x (op y z) = op (op x y) z.
Hypothesis Hl : forall x, Ok x -> op id x = x.
Hypothesis Hr : forall x, Ok x -> op x id = x.

Lemma fold_left_acc l x : Ok x -> Forall Ok l -> fold_left op l x = op x (fold_left op l id).
Proof.
  intros Hx H. revert x Hx. induction H as [|y l Hy H IH]; intros x Hx; cbn; [symmetry; apply Hr; exact Hx|].
  rewrite IH by auto. rewrite (Hl y Hy). rewrite (IH y Hy).
  rewrite Hassoc; auto. clear - H Hid Hop. revert H. assert (forall z, Ok z -> Forall Ok l -> Ok (fold_left op l z)) as G; [|apply G; exact Hid].
  induction l as [|w l IHl]; intros z Hz HF; cbn; [exact Hz|]. apply Forall_cons_iff in HF as [H1 H2]. apply IHl; auto.
Qed.
Lemma fold_left_ok l : forall x, Ok x -> Forall Ok l -> Ok (fold_left op l x).
Proof. induction l as [|y l IH]; intros x Hx H; cbn; [exact Hx|]. apply Forall_cons_iff in H as [H1 H2]. apply IH; auto. Qed.
Lemma reduce_sum : forall t l1 l2, Forall Ok l1 -> items t = length l1 -> reduce op id t (l1 ++ l2) = (fold_left op l1 id, l2).
Proof.
  induction t as [| |a IHa b IHb]; intros l1 l2 H Hi; cbn in *.
  - destruct l1; [reflexivity|discriminate].
  - destruct l1 as [|x [|? ?]]; try discriminate. cbn. apply Forall_cons_iff in H as [H1 _]. rewrite Hl by exact H1. reflexivity.
  - assert (exists u v, l1 = u ++ v /\ length u = items a) as (u & v & -> & Lu).
    { exists (firstn (items a) l1), (skipn (items a) l1). split; [symmetry; apply firstn_skipn|]. rewrite firstn_length. lia. }
    rewrite app_length, Lu in Hi. apply Forall_app in H as [Hu Hv].
    rewrite <- app_assoc, (IHa u (v ++ l2)) by auto. rewrite (IHb v l2) by (auto; lia).
    rewrite fold_left_app. rewrite (fold_left_acc v (fold_left op u id)); [reflexivity| |exact Hv]. apply fold_left_ok; assumption.
Qed.
Lemma reduce_fold t l : Forall Ok l -> items t = length l -> fst (reduce op id t l) = fold_left op l id.
Proof. intros H Hi. rewrite <- (app_nil_r l). rewrite reduce_sum by (rewrite ?app_nil_r; assumption). rewrite app_nil_r. reflexivity. Qed.
End Red.
Lemma items_left n : items (left_tree n) = n.
Proof. induction n; cbn; lia. Qed.

(** ** Server programs *)
Lemma par_run_shape {A} (tasks : list (prog A)) m : shape (snd (par_run tasks m)) = shape m.
Proof. apply run_shape. Qed.

(** Along the deterministic run from [m], every loop has separable, disciplined tasks and every
    continuation of a reduction is independent of the tree. *)
Fixpoint sdet {A} (p : sprog A) (m : mem) : Prop :=
  match p with
  | SRet _ | SFail _ => True
  | SPar tasks k => separable (shape m) tasks /\ Forall (disc []) tasks /\
      match par_run tasks m with (Ok rs, m') => sdet (k rs) m' | (Panic _, _) => True end
  | SReduce n k => (forall t, items t = n -> k t = k (left_tree n)) /\ sdet (k (left_tree n)) m
  end.
Lemma sexec_det {A} pref (p : sprog A) : forall m o m', sdet p m -> sexec pref p m o m' ->
  match srun p m with (Ok a, m1) => o = Ok a /\ m' = m1 | (Panic _, _) => exists e, o = Panic e end.
Proof.
  induction p as [a|e|B tasks k IH|n k IH]; intros m o m' Hd Hx; cbn [srun sdet sexec] in *.
  - exact Hx.
  - destruct Hx as [-> _]. eauto.
  - destruct Hd as (Hsep & _ & Hd).
    destruct Hx as [(rs & m1 & Hp & Hx)|(e & Hp & ->)].
    + pose proof (par_exec_det pref _ tasks m _ _ eq_refl Hsep Hp) as H. destruct (par_run tasks m) as [[rs'|e] m1'].
      * destruct H as [[= ->] ->]. eapply IH; eassumption.
      * destruct H as (e' & H). discriminate.
    + pose proof (par_exec_det pref _ tasks m _ _ eq_refl Hsep Hp) as H. destruct (par_run tasks m) as [[rs'|e'] m1'].
      * destruct H as [H _]; discriminate.
      * eauto.
  - destruct Hx as (t & Ht & Hx). destruct Hd as [Hk Hd]. rewrite (Hk t Ht) in Hx. eapply IH; eassumption.
Qed.
Lemma sexec_exists {A} pref (p : sprog A) : forall m a m', sdet p m -> srun p m = (Ok a, m') -> sexec pref p m (Ok a) m'.
Proof.
  induction p as [a|e|B tasks k IH|n k IH]; intros m o m' Hd Hx; cbn [srun sdet sexec] in *.
  - injection Hx as -> ->. auto.
  - discriminate.
  - destruct Hd as (Hsep & Hdis & Hd). destruct (par_run tasks m) as [[rs|e] m1] eqn:E; [|discriminate].
    left. exists rs, m1. split; [|apply IH; assumption]. eapply par_exec_exists; try eassumption; reflexivity.
  - destruct Hd as [Hk Hd]. exists (left_tree n). split; [apply items_left|]. apply IH; assumption.
Qed.
