(** * Programs that differ only in the values of ciphertexts make the same accesses *)
From Coq Require Import Permutation.
From Verif Require Import MBase MUtils MPoly MRlwe MSched MOram SpecShape PfSched PfSched2 PfSched3 PfOram1 PfDet2.
Local Open Scope nat_scope.

Definition V (a b : rlwe) : Prop := ct_shape a = ct_shape b.
Definition msim (m1 m2 : mem) : Prop := db_shape m1 = db_shape m2.

Lemma msim_len m1 m2 r : msim m1 m2 -> mlen m1 r = mlen m2 r.
Proof.
  unfold msim, db_shape, mlen. intros H. apply (f_equal (fun l => nth_error l r)) in H. rewrite !nth_error_map in H.
  destruct (nth_error m1 r), (nth_error m2 r); cbn in *; try discriminate; [|reflexivity]. injection H as H. apply (f_equal (@length _)) in H. rewrite !map_length in H. congruence.
Qed.
Lemma msim_get m1 m2 r c : msim m1 m2 ->
  match mget m1 r c, mget m2 r c with Some a, Some b => V a b | None, None => True | _, _ => False end.
Proof.
  unfold msim, db_shape, mget. intros H. apply (f_equal (fun l => nth_error l r)) in H. rewrite !nth_error_map in H.
  destruct (nth_error m1 r) as [r1|], (nth_error m2 r) as [r2|]; cbn in *; try discriminate; [|exact I]. injection H as H.
  apply (f_equal (fun l => nth_error l c)) in H. rewrite !nth_error_map in H.
  destruct (nth_error r1 c), (nth_error r2 c); cbn in *; try discriminate; [|exact I]. injection H as H. unfold V, ct_shape; congruence.
Qed.
Lemma map_upd {A B} (f : A -> B) l i x : map f (upd l i x) = upd (map f l) i (f x).
Proof. revert i; induction l as [|y l IH]; intros [|i]; cbn; try reflexivity. now rewrite IH. Qed.
Lemma msim_set m1 m2 r c v1 v2 : msim m1 m2 -> V v1 v2 -> msim (mset m1 r c v1) (mset m2 r c v2).
Proof.
  unfold msim, db_shape, mset. intros H Hv. pose proof (f_equal (fun l => nth_error l r) H) as Hr. cbv beta in Hr. rewrite !nth_error_map in Hr.
  destruct (nth_error m1 r) as [r1|], (nth_error m2 r) as [r2|]; cbn in Hr; try discriminate; [|exact H]. injection Hr as Hr.
  rewrite !map_upd. f_equal; [exact H|]. f_equal; [exact Hr|exact Hv].
Qed.

(** Results of the same kind. *)
Definition rres {A1 A2} (R : A1 -> A2 -> Prop) (x : res A1) (y : res A2) : Prop :=
  match x, y with Ok a, Ok b => R a b | Panic _, Panic _ => True | _, _ => False end.
Lemma rres_bind {A1 A2 B1 B2} (R : A1 -> A2 -> Prop) (R' : B1 -> B2 -> Prop) x y f g :
  rres R x y -> (forall a b, R a b -> rres R' (f a) (g b)) -> rres R' (bind x f) (bind y g).
Proof. intros H HF. destruct x, y; cbn in *; try contradiction; auto. Qed.
Lemma rres_refl {A} (R : A -> A -> Prop) x : (forall a, R a a) -> rres R x x.
Proof. intros H. destruct x; cbn; auto. Qed.
Lemma rres_imp {A1 A2} (R R' : A1 -> A2 -> Prop) x y : (forall a b, R a b -> R' a b) -> rres R x y -> rres R' x y.
Proof. intros H. destruct x, y; cbn; auto. Qed.

Inductive psim {A1 A2} (R : A1 -> A2 -> Prop) : prog A1 -> prog A2 -> Prop :=
| PS_ret a b : R a b -> psim R (PRet a) (PRet b)
| PS_fail e e' : psim R (PFail e) (PFail e')
| PS_lock l k k' : psim R k k' -> psim R (PLock l k) (PLock l k')
| PS_unlock l k k' : psim R k k' -> psim R (PUnlock l k) (PUnlock l k')
| PS_len r k k' : (forall x, psim R (k x) (k' x)) -> psim R (PLen r k) (PLen r k')
| PS_load r c k k' : (forall v v', V v v' -> psim R (k v) (k' v')) -> psim R (PLoad r c k) (PLoad r c k')
| PS_store r c v v' k k' : V v v' -> psim R k k' -> psim R (PStore r c v k) (PStore r c v' k').

Lemma psim_bind {A1 A2 B1 B2} (R : A1 -> A2 -> Prop) (R' : B1 -> B2 -> Prop) p p' f f' :
  psim R p p' -> (forall a b, R a b -> psim R' (f a) (f' b)) -> psim R' (pbind p f) (pbind p' f').
Proof. intros H HF. induction H; cbn; try (constructor; auto); auto. Qed.
Lemma psim_imp {A1 A2} (R R' : A1 -> A2 -> Prop) p p' : (forall a b, R a b -> R' a b) -> psim R p p' -> psim R' p p'.
Proof. intros H HP. induction HP; constructor; auto. Qed.
Lemma psim_lift {A1 A2} (R : A1 -> A2 -> Prop) x y : rres R x y -> psim R (plift x) (plift y).
Proof. destruct x, y; cbn; intros H; try contradiction; constructor; auto. Qed.
Lemma psim_mapM {A1 A2 B1 B2} (R : A1 -> A2 -> Prop) (Q : B1 -> B2 -> Prop) f f' l l' :
  Forall2 R l l' -> (forall x y, R x y -> psim Q (f x) (f' y)) -> psim (Forall2 Q) (pmapM f l) (pmapM f' l').
Proof.
  intros H HF. induction H as [|x y l l' Hxy H IH]; cbn; [constructor; constructor|].
  eapply psim_bind; [apply HF, Hxy|]. intros a b Hab. eapply psim_bind; [exact IH|]. intros ys ys' Hys. constructor. constructor; assumption.
Qed.
Lemma psim_foldM {A1 A2 S1 S2} (R : A1 -> A2 -> Prop) (Q : S1 -> S2 -> Prop) f f' l l' :
  Forall2 R l l' -> (forall s s' x y, Q s s' -> R x y -> psim Q (f s x) (f' s' y)) -> forall s s', Q s s' -> psim Q (pfoldM f l s) (pfoldM f' l' s').
Proof.
  intros H HF. induction H as [|x y l l' Hxy H IH]; cbn; intros s s' Hs; [constructor; exact Hs|].
  eapply psim_bind; [apply HF; eassumption|]. intros a b Hab. apply IH, Hab.
Qed.

Lemma psim_run {A1 A2} (R : A1 -> A2 -> Prop) p p' : psim R p p' -> forall m m', msim m m' ->
  trace p m = trace p' m' /\ rres R (fst (run p m)) (fst (run p' m')) /\ msim (snd (run p m)) (snd (run p' m')).
Proof.
  induction 1 as [a b H|e e'|l k k' H IH|l k k' H IH|r k k' H IH|r c k k' H IH|r c v v' k k' Hv H IH]; intros m m' Hm; cbn [trace run].
  - auto.
  - cbn; auto.
  - destruct (IH m m' Hm) as (-> & ? & ?). auto.
  - destruct (IH m m' Hm) as (-> & ? & ?). auto.
  - rewrite (msim_len m m' r Hm). destruct (mlen m' r) as [x|]; [|cbn; auto]. destruct (IH x m m' Hm) as (-> & ? & ?). auto.
  - pose proof (msim_get m m' r c Hm) as G. destruct (mget m r c) as [v|], (mget m' r c) as [v'|]; try contradiction; [|cbn; auto].
    destruct (IH v v' G m m' Hm) as (-> & ? & ?). auto.
  - pose proof (msim_get m m' r c Hm) as G. destruct (mget m r c) as [w|], (mget m' r c) as [w'|]; try contradiction; [|cbn; auto].
    destruct (IH (mset m r c v) (mset m' r c v')) as (-> & ? & ?); [apply msim_set; assumption|]. auto.
Qed.

(** ** Parallel loops *)
Lemma tasks_sim {A1 A2} (Q : A1 -> A2 -> Prop) ts ts' : Forall2 (psim Q) ts ts' -> forall m m', msim m m' ->
  par_traces ts m = par_traces ts' m' /\ rres (Forall2 Q) (fst (par_run ts m)) (fst (par_run ts' m')) /\ msim (snd (par_run ts m)) (snd (par_run ts' m')).
Proof.
  intros H m m' Hm. split; [|].
  - revert m m' Hm. induction H as [|p p' ts ts' Hp H IH]; intros m m' Hm; cbn; [reflexivity|].
    destruct (psim_run Q p p' Hp m m' Hm) as (E & _ & Hm'). rewrite E. f_equal. apply IH, Hm'.
  - apply (psim_run (Forall2 Q)); [|exact Hm]. apply (psim_mapM (psim Q)); auto.
Qed.

Inductive ssim {A1 A2} (R : A1 -> A2 -> Prop) : sprog A1 -> sprog A2 -> Prop :=
| SS_ret a b : R a b -> ssim R (SRet a) (SRet b)
| SS_fail e e' : ssim R (SFail e) (SFail e')
| SS_par B1 B2 (Q : B1 -> B2 -> Prop) ts ts' k k' : Forall2 (psim Q) ts ts' ->
    (forall rs rs', Forall2 Q rs rs' -> ssim R (k rs) (k' rs')) -> ssim R (SPar ts k) (SPar ts' k')
| SS_red n k k' : (forall t, ssim R (k t) (k' t)) -> ssim R (SReduce n k) (SReduce n k').
Lemma ssim_bind {A1 A2 B1 B2} (R : A1 -> A2 -> Prop) (R' : B1 -> B2 -> Prop) p p' f f' :
  ssim R p p' -> (forall a b, R a b -> ssim R' (f a) (f' b)) -> ssim R' (sbind p f) (sbind p' f').
Proof. intros H HF. induction H; cbn; auto; try (econstructor; eauto; fail). Qed.
Lemma ssim_lift {A1 A2} (R : A1 -> A2 -> Prop) x y : rres R x y -> ssim R (slift x) (slift y).
Proof. destruct x, y; cbn; intros H; try contradiction; constructor; auto. Qed.
Lemma ssim_par {A1 A2 B1 B2} (R : A1 -> A2 -> Prop) (Q : B1 -> B2 -> Prop) (f : A1 -> prog B1) (f' : A2 -> prog B2) l l' :
  Forall2 R l l' -> (forall x y, R x y -> psim Q (f x) (f' y)) -> ssim (Forall2 Q) (spar (map f l)) (spar (map f' l')).
Proof.
  intros H HF. apply (SS_par _ _ _ Q); [|intros; constructor; assumption]. induction H; cbn; constructor; auto.
Qed.
Lemma ssim_one {B1 B2} (Q : B1 -> B2 -> Prop) p p' : psim Q p p' -> ssim Q (sone p) (sone p').
Proof.
  intros H. apply (SS_par _ _ _ Q); [constructor; [exact H|constructor]|]. intros rs rs' HF.
  destruct HF as [|x y rs rs' Hxy HF]; [constructor|]. destruct HF; constructor; assumption.
Qed.
Lemma ssim_traces {A1 A2} (R : A1 -> A2 -> Prop) p p' : ssim R p p' -> forall m m', msim m m' -> straces p m = straces p' m'.
Proof.
  induction 1 as [a b H|e e'|B1 B2 Q ts ts' k k' Ht Hk IH|x k k' Hk IH]; intros m m' Hm; cbn [straces]; try reflexivity.
  - destruct (tasks_sim Q ts ts' Ht m m' Hm) as (-> & Hr & Hm'). f_equal.
    destruct (par_run ts m) as [[rs|e] m1], (par_run ts' m') as [[rs'|e'] m1']; cbn in *; try contradiction; [|reflexivity]. apply IH; assumption.
  - apply IH, Hm.
Qed.

(** ** Every schedule *)
Definition wsim {A1 A2} (R : A1 -> A2 -> Prop) (w : worker A1) (w' : worker A2) : Prop :=
  psim R (w_prog w) (w_prog w') /\ w_held w = w_held w'.
Lemma F2_upd {A B} (R : A -> B -> Prop) l l' : Forall2 R l l' -> forall i x y, R x y -> Forall2 R (upd l i x) (upd l' i y).
Proof. induction 1 as [|a b l l' Hab H IH]; intros [|i] x y Hxy; cbn; constructor; auto. Qed.
Lemma F2_nth {A B} (R : A -> B -> Prop) l l' i x : Forall2 R l l' -> nth_error l i = Some x -> exists y, nth_error l' i = Some y /\ R x y.
Proof.
  intros H. revert i. induction H as [|a b l l' Hab H IH]; intros [|i] E; cbn in *; try discriminate; [injection E as <-; eauto|auto].
Qed.
Lemma F2_In {A B} (R : A -> B -> Prop) l l' x : Forall2 R l l' -> In x l -> exists y, In y l' /\ R x y.
Proof. intros H Hx. apply In_nth_error in Hx as [i Hi]. destruct (F2_nth R l l' i x H Hi) as (y & Hy & Hxy). apply nth_error_In in Hy. eauto. Qed.
Lemma F2_flip {A B} (R : A -> B -> Prop) l l' : Forall2 R l l' -> Forall2 (fun y x => R x y) l' l.
Proof. induction 1; constructor; auto. Qed.
Lemma may_lock_sim {A1 A2} (R : A1 -> A2 -> Prop) pref ws ws' i l : Forall2 (wsim R) ws ws' -> may_lock pref ws i l -> may_lock pref ws' i l.
Proof.
  intros H. pose proof (F2_flip _ _ _ H) as H'. destruct l as [r|r|]; cbn.
  - intros [H1 H2]. split.
    + intros w' Hw'. destruct (F2_In _ _ _ _ H' Hw') as (w & Hw & _ & E). rewrite <- E. apply H1, Hw.
    + intros Hp w' Hw' (k & Ek). destruct (F2_In _ _ _ _ H' Hw') as (w & Hw & Hs & _). apply (H2 Hp w Hw).
      rewrite Ek in Hs. inversion Hs as [| |l0 k0 k0' Hk Ea Eb | | | |]; subst. exists k0. symmetry; assumption.
  - intros H1 w' Hw'. destruct (F2_In _ _ _ _ H' Hw') as (w & Hw & _ & E). rewrite <- E. apply H1, Hw.
  - intros H1 w' Hw'. destruct (F2_nth _ _ _ _ _ H' Hw') as (w & Hw & _ & E). rewrite <- E. apply H1, Hw.
Qed.
Lemma next_sim {A1 A2} (R : A1 -> A2 -> Prop) p p' m m' p1 m1 : psim R p p' -> msim m m' -> next p m = Some (p1, m1) ->
  exists p1' m1', next p' m' = Some (p1', m1') /\ psim R p1 p1' /\ msim m1 m1' /\ head p = head p' /\ forall h, held_after p p1 h = held_after p' p1' h.
Proof.
  intros H Hm E.
  assert (exists p1' m1', next p' m' = Some (p1', m1') /\ psim R p1 p1' /\ msim m1 m1') as (p1' & m1' & E' & Hp & Hm1).
  { inversion H as [a b Hr|e e'|l k k' Hk|l k k' Hk|r k k' Hk|r c k k' Hk|r c v v' k k' Hv Hk]; subst; cbn in E |- *; try discriminate.
    - injection E as <- <-. eauto.
    - injection E as <- <-. eauto.
    - injection E as <- <-. rewrite (msim_len m m' r Hm). eexists _, _. split; [reflexivity|]. split; [|exact Hm]. destruct (mlen m' r); [apply Hk|constructor].
    - injection E as <- <-. eexists _, _. split; [reflexivity|]. split; [|exact Hm].
      pose proof (msim_get m m' r c Hm) as G. destruct (mget m r c), (mget m' r c); try contradiction; [apply Hk, G|constructor].
    - pose proof (msim_get m m' r c Hm) as G. destruct (mget m r c), (mget m' r c); try contradiction; injection E as <- <-; eexists _, _.
      + split; [reflexivity|]. split; [exact Hk|]. apply msim_set; assumption.
      + split; [reflexivity|]. split; [constructor|exact Hm]. }
  exists p1', m1'. split; [exact E'|]. split; [exact Hp|]. split; [exact Hm1|]. split.
  - inversion H; reflexivity.
  - intros h. unfold held_after. inversion Hp; subst; inversion H; reflexivity.
Qed.
Lemma observed_sim {A1 A2} (R : A1 -> A2 -> Prop) pref ws m obs ws1 m1 : observed pref ws m obs ws1 m1 -> forall ws' m', Forall2 (wsim R) ws ws' -> msim m m' ->
  exists ws1' m1', observed pref ws' m' obs ws1' m1' /\ Forall2 (wsim R) ws1 ws1' /\ msim m1 m1'.
Proof.
  induction 1 as [ws m|ws m i w p1 m1 e obs ws2 m2 Hi Hl Hn He Ho IH]; intros ws' m' Hw Hm; [exists ws', m'; split; [constructor|auto]|].
  destruct (F2_nth _ _ _ _ _ Hw Hi) as (w' & Hi' & Hs & Hh).
  destruct (next_sim R _ _ _ _ _ _ Hs Hm Hn) as (p1' & m1' & Hn' & Hp & Hm1 & He' & Hha).
  destruct (IH (upd ws' i {| w_prog := p1'; w_held := held_after (w_prog w') p1' (w_held w') |}) m1') as (ws1' & m2' & Ho' & Hw1 & Hm2).
  - apply F2_upd; [exact Hw|]. split; cbn; [exact Hp|]. rewrite Hha, Hh. reflexivity.
  - exact Hm1.
  - exists ws1', m2'. split; [|auto]. eapply Obs_step; [exact Hi'| |exact Hn'|rewrite <- He'; exact He|exact Ho'].
    intros l k' Ek'. apply (may_lock_sim R pref ws ws' i l Hw). rewrite Ek' in Hs. inversion Hs as [| |l0 k k0' Hk Ea Eb| | | |]; subst. apply (Hl l k). symmetry; assumption.
Qed.

Definition numbered {A1 A2} (Q : A1 -> A2 -> Prop) (x : nat * A1) (y : nat * A2) : Prop := fst x = fst y /\ Q (snd x) (snd y).
Lemma wprog_sim {A1 A2} (Q : A1 -> A2 -> Prop) qu qu' : Forall2 (numbered (psim Q)) qu qu' -> psim (Forall2 (numbered Q)) (wprog qu) (wprog qu').
Proof.
  induction 1 as [|[i p] [i' p'] qu qu' [E Hp] H IH]; cbn in *; [constructor; constructor|]. subst i'.
  eapply psim_bind; [exact Hp|]. intros a b Hab. eapply psim_bind; [exact IH|]. intros r r' Hr. constructor. constructor; [split; [reflexivity|exact Hab]|exact Hr].
Qed.
Lemma start_sim {A1 A2} (Q : A1 -> A2 -> Prop) qs qs' : Forall2 (Forall2 (numbered (psim Q))) qs qs' -> Forall2 (wsim (Forall2 (numbered Q))) (start qs) (start qs').
Proof. induction 1; cbn; constructor; auto. split; cbn; [apply wprog_sim; assumption|reflexivity]. Qed.
Lemma concat_F2 {A B} (R : A -> B -> Prop) l l' : Forall2 (Forall2 R) l l' -> Forall2 R (concat l) (concat l').
Proof. induction 1; cbn; [constructor|]. apply Forall2_app; assumption. Qed.
Lemma number_F2 {A1 A2} (R : A1 -> A2 -> Prop) l l' : Forall2 R l l' -> Forall2 (numbered R) (number l) (number l').
Proof.
  intros H. unfold number. rewrite <- (F2_len _ _ _ H). pose proof (F2_len _ _ _ H) as L. generalize 0. clear L. induction H as [|x y l l' Hxy H IH]; intros a; cbn; constructor; [split; auto|apply IH].
Qed.
Lemma number_snd {A} (l : list (nat * A)) : forall a k, map fst l = seq a k -> combine (seq a (length (map snd l))) (map snd l) = l.
Proof.
  induction l as [|[i x] l IH]; intros a k H; cbn in *; [reflexivity|]. destruct k; [discriminate|]. cbn in H. injection H as -> H. f_equal. eapply IH, H.
Qed.
Lemma F2_numbered_inv {A1 A2} (R : A1 -> A2 -> Prop) l l2 : Forall2 (numbered R) (number l) l2 -> exists l', l2 = number l' /\ Forall2 R l l'.
Proof.
  intros H. exists (map snd l2). assert (map fst l2 = seq 0 (length l)) as E.
  { rewrite <- (number_fst l). revert H. generalize (number l) as nl. intros nl H. clear l. induction H as [|x y ? ? [E _] H IH]; cbn; [reflexivity|]. rewrite IH, E. reflexivity. }
  split; [symmetry; apply (number_snd l2 0 (length l)), E|].
  unfold number in H. revert H. clear E. generalize 0. revert l2. induction l as [|x l IH]; intros l2 a H; cbn in H; inversion H as [|? y ? l3 [_ Hxy] H3]; subst; cbn; constructor; [exact Hxy|].
  eapply IH, H3.
Qed.
(** Splitting a permuted related list along the queues. *)
Lemma queues_sim {A1 A2} (Q : A1 -> A2 -> Prop) (qs : list (list (nat * A1))) ts ts' : Forall2 Q ts ts' -> Permutation (concat qs) (number ts) ->
  exists qs', Forall2 (Forall2 (numbered Q)) qs qs' /\ Permutation (concat qs') (number ts') /\ map (map fst) qs' = map (map fst) qs.
Proof.
  intros H Hp. apply Permutation_sym in Hp. destruct (Permutation_Forall2 Hp (number_F2 Q ts ts' H)) as (l2 & Hp2 & HF).
  assert (exists qs', concat qs' = l2 /\ Forall2 (Forall2 (numbered Q)) qs qs') as (qs' & <- & Hq).
  { clear - HF. revert l2 HF. induction qs as [|qu qs IH]; intros l2 HF; cbn in HF.
    - inversion HF; subst. exists []. split; [reflexivity|constructor].
    - apply Forall2_app_inv_l in HF as (a & b & Ha & Hb & ->). destruct (IH b Hb) as (qs' & <- & Hq). exists (a :: qs'). split; [reflexivity|constructor; assumption]. }
  exists qs'. split; [exact Hq|]. split; [symmetry; exact Hp2|].
  clear - Hq. induction Hq as [|a b qs qs' Hab Hq IH]; cbn; [reflexivity|]. f_equal; [|exact IH].
  clear - Hab. induction Hab as [|x y ? ? [E _] H IH]; cbn; [reflexivity|]. rewrite IH, E. reflexivity.
Qed.
Lemma sobserved_sim {A1 A2} (R : A1 -> A2 -> Prop) pref p p' : ssim R p p' -> forall m m' c, msim m m' -> sobserved pref p m c -> sobserved pref p' m' c.
Proof.
  induction 1 as [a b H|e e'|B1 B2 Q ts ts' k k' Ht Hk IH|x k k' Hk IH]; intros m m' c Hm; cbn [sobserved]; try (destruct c; auto; fail).
  - destruct c as [|qn obs rest|]; auto. intros (queues & ws & m1 & <- & Hp & Ho & Hf & Hr).
    destruct (queues_sim (psim Q) queues ts ts' Ht Hp) as (queues' & Hq & Hp' & Eq).
    destruct (observed_sim _ pref _ _ _ _ _ Ho _ m' (start_sim Q _ _ Hq) Hm) as (ws' & m1' & Ho' & Hw & Hm1).
    exists queues', ws', m1'. split; [exact Eq|]. split; [exact Hp'|]. split; [exact Ho'|]. split.
    { intros w' Hw'. destruct (F2_In _ _ _ _ (F2_flip _ _ _ Hw) Hw') as (w & Hin & Hs & _). specialize (Hf w Hin).
      inversion Hs as [a b Hab Ea Eb| | | | | |]; cbn; try discriminate; exfalso; apply Hf; match goal with H : _ = w_prog w |- _ => rewrite <- H; reflexivity end. }
    destruct Hr as [(w & e & Hin & Ew & ->)|(rss & rs & Ew & Hpr & Hrest)].
    + left. destruct (F2_In _ _ _ _ Hw Hin) as (w' & Hin' & Hs & _). rewrite Ew in Hs. inversion Hs; subst. eauto.
    + right. assert (exists rss', map (fun w => w_prog w) ws' = map PRet rss' /\ Forall2 (Forall2 (numbered Q)) rss rss') as (rss' & Ew' & Hrs).
      { clear - Ew Hw. revert rss Ew. induction Hw as [|w w' ws ws' [Hs _] Hw IH]; intros rss Ew; destruct rss as [|r rss]; try discriminate; [exists []; split; [reflexivity|constructor]|].
        cbn in Ew. injection Ew as E1 E2. destruct (IH rss E2) as (rss' & E' & HF). rewrite E1 in Hs. inversion Hs as [a b Hab Ea Eb| | | | | |]; subst.
        exists (b :: rss'). split; [cbn; rewrite E', Eb; reflexivity|constructor; assumption]. }
      destruct (Permutation_Forall2 Hpr (concat_F2 _ _ _ Hrs)) as (l2 & Hp2 & HF). apply F2_numbered_inv in HF as (rs' & -> & HFr).
      exists rss', rs'. split; [exact Ew'|]. split; [exact Hp2|]. eapply IH; [exact HFr|exact Hm1|exact Hrest].
  - destruct c as [| |t rest]; auto. intros [E H]. split; [exact E|]. eapply IH; eassumption.
Qed.

(** Every execution has a course. *)
Lemma steps_observed {A} pref (ws : config A) m ws' m' : steps pref ws m ws' m' <-> exists obs, observed pref ws m obs ws' m'.
Proof.
  split.
  - induction 1 as [ws m|ws m ws1 m1 ws2 m2 H _ [obs IH]]; [exists []; constructor|].
    inversion H as [? ? i w p' ? Hi Hl Hn]; subst.
    assert (exists e, head (w_prog w) = Some e) as [e He] by (destruct (w_prog w); cbn in Hn; try discriminate; cbn; eauto).
    exists ((i, e) :: obs). econstructor; eassumption.
  - intros [obs H]. induction H as [|ws m i w p' m1 e obs ws2 m2 Hi Hl Hn He Ho IH]; [constructor|]. econstructor; [|exact IH]. constructor; assumption.
Qed.
Lemma sexec_course {A} pref (p : sprog A) : forall m r m', sexec pref p m r m' -> exists c, sobserved pref p m c.
Proof.
  induction p as [a|e|B tasks k IH|x k IH]; intros m r m' H; cbn [sexec] in H.
  - exists CEnd. exact I.
  - exists CEnd. exact I.
  - destruct H as [(rs & m1 & Hx & Hk)|(e & Hx & _)].
    + inversion Hx as [queues ws rss rs' m1' Hp Hst Hr Hpr|]; subst. destruct (IH rs m1 r m' Hk) as [c Hc]. apply steps_observed in Hst as [obs Ho].
      exists (CLoop (map (map fst) queues) obs c). exists queues, ws, m1. split; [reflexivity|]. split; [exact Hp|]. split; [exact Ho|]. split.
      * intros w Hw. apply (in_map (fun w => w_prog w)) in Hw. rewrite Hr in Hw. apply in_map_iff in Hw as (rs0 & <- & _). discriminate.
      * right. eauto.
    + inversion Hx as [|queues ws m1' e' w Hp Hst Hf Hw Ew]; subst. apply steps_observed in Hst as [obs Ho].
      exists (CLoop (map (map fst) queues) obs CEnd). exists queues, ws, m'. split; [reflexivity|]. split; [exact Hp|]. split; [exact Ho|]. split; [exact Hf|]. left. eauto.
  - destruct H as (t & Ht & Hk). destruct (IH t m r m' Hk) as [c Hc]. exists (CRed t c). split; assumption.
Qed.
