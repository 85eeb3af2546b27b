(** * Counting the accesses of programs, whatever the schedule. *)
From Coq Require Import Permutation.
From Verif Require Import MBase MRlwe MSched SpecShape SpecView SpecTouch.
Local Open Scope nat_scope.

Notation cnt e l := (count_occ same_event l e).
Lemma cnt_app e l l' : cnt e (l ++ l') = cnt e l + cnt e l'. Proof. apply count_occ_app. Qed.
Lemma cnt_cons e x l : cnt e (x :: l) = cnt e [x] + cnt e l. Proof. change (x :: l) with ([x] ++ l). apply cnt_app. Qed.

(** [p], in a memory whose rows have the lengths [dims], does exactly [evs] before it returns a value with [Q], or panics on the way. *)
Fixpoint emits {A} (dims : nat -> option nat) (p : prog A) (evs : list event) (Q : A -> Prop) : Prop :=
  match p with
  | PRet a => evs = [] /\ Q a
  | PFail _ => True
  | PLock l k => exists evs', evs = ELock l :: evs' /\ emits dims k evs' Q
  | PUnlock l k => exists evs', evs = EUnlock l :: evs' /\ emits dims k evs' Q
  | PLen r k => exists evs', evs = ELen r :: evs' /\ forall x, dims r = Some x -> emits dims (k x) evs' Q
  | PLoad r c k => exists evs', evs = ELoad r c :: evs' /\ forall v, emits dims (k v) evs' Q
  | PStore r c v k => exists evs', evs = EStore r c :: evs' /\ emits dims k evs' Q
  end.
Lemma emits_bind {A B} dims (p : prog A) (f : A -> prog B) Q1 Q e2 : forall e1,
  emits dims p e1 Q1 -> (forall a, Q1 a -> emits dims (f a) e2 Q) -> emits dims (pbind p f) (e1 ++ e2) Q.
Proof.
  induction p as [a|e|l k IH|l k IH|r k IH|r c k IH|r c v k IH]; intros e1 H Hf; cbn [pbind emits] in *.
  - destruct H as [-> H]. apply Hf, H.
  - exact I.
  - destruct H as (ev & -> & H). exists (ev ++ e2). split; [reflexivity|apply IH; assumption].
  - destruct H as (ev & -> & H). exists (ev ++ e2). split; [reflexivity|apply IH; assumption].
  - destruct H as (ev & -> & H). exists (ev ++ e2). split; [reflexivity|]. intros x Hx. apply IH; auto.
  - destruct H as (ev & -> & H). exists (ev ++ e2). split; [reflexivity|]. intros x. apply IH; auto.
  - destruct H as (ev & -> & H). exists (ev ++ e2). split; [reflexivity|apply IH; assumption].
Qed.
Lemma emits_lift {A} dims (x : res A) (Q : A -> Prop) : (forall a, x = Ok a -> Q a) -> emits dims (plift x) [] Q.
Proof. destruct x; cbn; auto. Qed.
Lemma emits_mapM {A B} dims (f : A -> prog B) (ev : A -> list event) (Q : A -> B -> Prop) : forall l,
  (forall x, In x l -> emits dims (f x) (ev x) (Q x)) -> emits dims (pmapM f l) (flat_map ev l) (fun ys => Forall2 Q l ys).
Proof.
  induction l as [|x l IH]; intros H; [cbn; auto|]. cbn [pmapM flat_map]. eapply emits_bind; [apply H; left; reflexivity|]. intros y Hy.
  rewrite <- (app_nil_r (flat_map ev l)). eapply emits_bind; [apply IH; intros z Hz; apply H; right; exact Hz|]. intros ys Hys. cbn. split; [reflexivity|]. constructor; assumption.
Qed.
Lemma emits_foldM {A S} dims (f : S -> A -> prog S) (ev : A -> list event) : forall l s,
  (forall s x, In x l -> emits dims (f s x) (ev x) (fun _ => True)) -> emits dims (pfoldM f l s) (flat_map ev l) (fun _ => True).
Proof.
  induction l as [|x l IH]; intros s H; [cbn; auto|]. cbn [pfoldM flat_map]. eapply emits_bind; [apply H; left; reflexivity|]. intros y _.
  apply IH. intros s' z Hz. apply H. right. exact Hz.
Qed.
Lemma emits_any {A} dims (p : prog A) (Q Q' : A -> Prop) : (forall a, Q a -> Q' a) -> forall ev, emits dims p ev Q -> emits dims p ev Q'.
Proof.
  intros HQ. induction p as [a|e|l k IH|l k IH|r k IH|r c k IH|r c v k IH]; intros ev H; cbn [emits] in *; try (destruct H as (ev' & -> & H); exists ev'; split; [reflexivity|]; auto; fail).
  - destruct H; auto.
  - exact I.
Qed.

Definition dims_of (m : mem) : nat -> option nat := mlen m.
Lemma mlen_mset m r c v r' : mlen (mset m r c v) r' = mlen m r'.
Proof.
  unfold mset, mlen. destruct (nth_error m r) as [row|] eqn:E; [|reflexivity]. rewrite nth_error_upd. destruct (Nat.eqb_spec r r') as [<-|Hn]; [|reflexivity].
  rewrite E. cbn. rewrite upd_length. reflexivity.
Qed.
Lemma next_emits {A} dims (p : prog A) m p' m' e ev Q : (forall r, mlen m r = dims r) -> next p m = Some (p', m') -> head p = Some e -> emits dims p ev Q ->
  (exists ev', ev = e :: ev' /\ emits dims p' ev' Q) /\ forall r, mlen m' r = dims r.
Proof.
  intros Hd Hn Hh H. destruct p as [a|x|l k|l k|r k|r c k|r c v k]; cbn [next head emits] in *; try discriminate; injection Hh as <-; destruct H as (ev' & -> & H).
  - injection Hn as <- <-. split; [exists ev'; auto|exact Hd].
  - injection Hn as <- <-. split; [exists ev'; auto|exact Hd].
  - injection Hn as <- <-. split; [exists ev'; split; [reflexivity|]|exact Hd]. destruct (mlen m r) as [x|] eqn:E; [apply H; rewrite <- Hd; exact E|exact I].
  - injection Hn as <- <-. split; [exists ev'; split; [reflexivity|]|exact Hd]. destruct (mget m r c) as [x|]; [apply H|exact I].
  - destruct (mget m r c) as [x|]; injection Hn as <- <-; (split; [exists ev'; split; [reflexivity|]|]); try exact H; try exact I; try exact Hd.
    intros r'. rewrite mlen_mset. apply Hd.
Qed.

Lemma Forall2_upd {A B} (R : A -> B -> Prop) : forall l l' i x y, Forall2 R l l' -> R x y -> Forall2 R (upd l i x) (upd l' i y).
Proof.
  intros l l' i x y H. revert i. induction H as [|a b l l' H1 H2 IH]; intros i Hxy; [destruct i; constructor|]. destruct i as [|i]; cbn; constructor; auto.
Qed.
Lemma Forall2_nth {A B} (R : A -> B -> Prop) l l' i a : Forall2 R l l' -> nth_error l i = Some a -> exists b, nth_error l' i = Some b /\ R a b.
Proof. intros H. revert i. induction H as [|x y l l' H1 H2 IH]; intros [|i] Hi; try discriminate; cbn in *; [injection Hi as <-; eauto|auto]. Qed.
Lemma cnt_upd e (es : list (list event)) : forall i ev x, nth_error es i = Some (x :: ev) -> cnt e (concat es) = cnt e [x] + cnt e (concat (upd es i ev)).
Proof.
  induction es as [|a es IH]; intros i ev x H; [destruct i; discriminate|]. destruct i as [|i]; cbn [nth_error] in H.
  - injection H as ->. cbn [concat upd]. rewrite cnt_app, (cnt_cons e x ev), cnt_app. lia.
  - cbn [concat upd]. rewrite !cnt_app, (IH i ev x H). lia.
Qed.
Lemma map_upd {A B} (f : A -> B) l : forall i x, map f (upd l i x) = upd (map f l) i (f x).
Proof. induction l as [|a l IH]; intros [|i] x; cbn; try reflexivity. f_equal. apply IH. Qed.

Lemma observed_counts {A} dims pref (ws : config A) m obs ws' m' : observed pref ws m obs ws' m' -> (forall r, mlen m r = dims r) ->
  forall es, Forall2 (fun w eq => emits dims (w_prog w) (fst eq) (snd eq)) ws es -> forall rss, map (fun w => w_prog w) ws' = map PRet rss ->
  (forall e, cnt e (map snd obs) = cnt e (concat (map fst es))) /\ Forall2 (fun eq a => snd eq a) es rss /\ forall r, mlen m' r = dims r.
Proof.
  induction 1 as [ws m|ws m i w p' m' e obs ws2 m2 Hi Hl Hn Hh Ho IH]; intros Hd es Hes rss Hrss.
  - assert (map fst es = repeat [] (length es) /\ Forall2 (fun (eq : list event * (A -> Prop)) a => snd eq a) es rss) as [E F].
    { revert rss Hrss. induction Hes as [|w [ev Q] ws es H1 H2 IH]; intros rss Hrss; [destruct rss; [|discriminate]; split; constructor|].
      destruct rss as [|a rss]; [discriminate|]. cbn [map] in Hrss. injection Hrss as Ep Hr. cbn [fst snd] in H1. rewrite Ep in H1. cbn in H1. destruct H1 as [-> HQ].
      destruct (IH rss Hr) as [E F]. split; [cbn; rewrite E; reflexivity|constructor; [exact HQ|exact F]]. }
    split; [|split; [exact F|exact Hd]]. intros e. rewrite E. cbn [map]. clear. induction (length es) as [|k IH]; [reflexivity|exact IH].
  - destruct (Forall2_nth _ _ _ _ _ Hes Hi) as ([ev Q] & Hi' & Hem). cbn [fst snd] in Hem.
    destruct (next_emits dims (w_prog w) m p' m' e ev Q Hd Hn Hh Hem) as [(ev' & -> & Hem') Hd'].
    destruct (IH Hd' (upd es i (ev', Q))) with (rss := rss) as (H1 & H2 & H3); [|exact Hrss|].
    { apply Forall2_upd; [exact Hes|exact Hem']. }
    split; [|split; [|exact H3]].
    + intros e'. cbn [map snd]. rewrite cnt_cons, H1. rewrite (cnt_upd e' (map fst es) i ev' e).
      * rewrite map_upd. reflexivity.
      * rewrite nth_error_map, Hi'. reflexivity.
    + assert (forall (es : list (list event * (A -> Prop))) i rss, nth_error es i = Some (e :: ev', Q) -> Forall2 (fun eq a => snd eq a) (upd es i (ev', Q)) rss -> Forall2 (fun eq a => snd eq a) es rss) as G.
      { clear. induction es as [|x es IH]; intros i rss Hi H; [destruct i; discriminate|]. destruct i as [|i]; cbn in *.
        - injection Hi as ->. inversion H; subst. constructor; assumption.
        - inversion H; subst. constructor; [assumption|]. eapply IH; eassumption. }
      eapply G; eassumption.
Qed.

Lemma emits_queue {A} dims (ev : nat -> list event) (Q : nat -> A -> Prop) : forall queue, (forall i p, In (i, p) queue -> emits dims p (ev i) (Q i)) ->
  emits dims (wprog queue) (flat_map (fun ip => ev (fst ip)) queue) (fun out => Forall2 (fun ip ia => fst ip = fst ia /\ Q (fst ia) (snd ia)) queue out).
Proof.
  induction queue as [|[i p] queue IH]; intros H; [cbn; auto|]. cbn [wprog flat_map fst]. eapply emits_bind; [apply H; left; reflexivity|]. intros a Ha.
  rewrite <- (app_nil_r (flat_map _ queue)). eapply emits_bind; [apply IH; intros j p' Hj; apply H; right; exact Hj|]. intros out Hout. cbn. split; [reflexivity|]. constructor; [split; [reflexivity|exact Ha]|exact Hout].
Qed.
Lemma number_fst {B} (l : list B) : map fst (number l) = seq 0 (length l).
Proof. unfold number. generalize 0 as o. induction l as [|y l IH]; intros o; [reflexivity|]. cbn. rewrite IH. reflexivity. Qed.
Lemma number_in {B} (l : list B) i b : In (i, b) (number l) <-> nth_error l i = Some b.
Proof.
  unfold number. assert (forall o, In (i, b) (combine (seq o (length l)) l) <-> o <= i /\ nth_error l (i - o) = Some b) as G.
  { induction l as [|x l IH]; intros o; cbn [length seq combine In]; [split; [intros []|intros [_ H]; destruct (i - o); discriminate]|]. rewrite IH. split.
    - intros [H|[H1 H2]]; [injection H as -> ->; rewrite Nat.sub_diag; auto|]. split; [lia|]. replace (i - o) with (S (i - S o)) by lia. exact H2.
    - intros [H1 H2]. destruct (Nat.eq_dec i o) as [->|Hn]; [left; rewrite Nat.sub_diag in H2; cbn in H2; congruence|]. right. split; [lia|].
      replace (i - o) with (S (i - S o)) in H2 by lia. exact H2. }
  rewrite G, Nat.sub_0_r. intuition lia.
Qed.
Lemma perm_flat {A} (f : A -> list event) l l' e : Permutation l l' -> cnt e (flat_map f l) = cnt e (flat_map f l').
Proof. intros H. apply Permutation_count_occ. apply Permutation_flat_map, H. Qed.
Lemma Forall2_len {A B} (R : A -> B -> Prop) l l' : Forall2 R l l' -> length l = length l'.
Proof. induction 1; cbn; congruence. Qed.

Lemma loop_counts {B} dims pref (tasks : list (prog B)) queues m obs ws m1 rss rs (ev : nat -> list event) (Q : nat -> B -> Prop) :
  (forall r, mlen m r = dims r) -> (forall i p, nth_error tasks i = Some p -> emits dims p (ev i) (Q i)) ->
  Permutation (concat queues) (number tasks) -> observed pref (start queues) m obs ws m1 -> map (fun w => w_prog w) ws = map PRet rss -> Permutation (concat rss) (number rs) ->
  (forall e, cnt e (map snd obs) = cnt e (flat_map ev (seq 0 (length tasks)))) /\ length rs = length tasks /\ (forall i b, nth_error rs i = Some b -> Q i b) /\ forall r, mlen m1 r = dims r.
Proof.
  intros Hd Ht Hp Ho Hr Hrs.
  assert (forall qu, In qu queues -> forall i p, In (i, p) qu -> emits dims p (ev i) (Q i)) as Hq.
  { intros qu Hqu i p Hip. apply Ht. apply number_in. eapply Permutation_in; [exact Hp|]. apply in_concat. eauto. }
  destruct (observed_counts dims pref _ _ _ _ _ Ho Hd (map (fun qu => (flat_map (fun ip => ev (fst ip)) qu, fun out => Forall2 (fun ip ia => fst ip = fst ia /\ Q (fst ia) (snd ia)) qu out)) queues)) with (rss := rss) as (H1 & H2 & H3).
  - clear - Hq. unfold start. induction queues as [|qu queues IH]; cbn [map]; constructor; [apply emits_queue, Hq; left; reflexivity|apply IH; intros; eapply Hq; [right; eassumption|eassumption]].
  - exact Hr.
  - assert (Forall2 (fun ip ia => fst ip = fst ia /\ Q (fst ia) (snd ia)) (concat queues) (concat rss)) as F.
    { clear - H2. revert rss H2. induction queues as [|qu queues IH]; intros rss H; inversion H; subst; cbn [concat]; [constructor|]. apply Forall2_app; [assumption|apply IH; assumption]. }
    split; [|split; [|split; [|exact H3]]].
    + intros e. rewrite H1, map_map. cbn [fst]. rewrite <- flat_map_concat_map.
      assert (flat_map (fun qu => flat_map (fun ip : nat * prog B => ev (fst ip)) qu) queues = flat_map (fun ip => ev (fst ip)) (concat queues)) as ->.
      { clear. induction queues as [|qu queues IH]; [reflexivity|]. cbn [flat_map concat]. rewrite flat_map_app, IH. reflexivity. }
      rewrite (perm_flat _ _ _ _ Hp). rewrite <- number_fst. f_equal. clear. induction (number tasks) as [|x l IH]; [reflexivity|]. cbn. rewrite IH. reflexivity.
    + apply Forall2_len in F. apply Permutation_length in Hp, Hrs. rewrite Hp, Hrs in F.
      assert (forall X (l : list X), length (number l) = length l) as L by (intros X l; rewrite <- (map_length fst), number_fst, seq_length; reflexivity). rewrite !L in F. congruence.
    + intros i b Hb. apply number_in in Hb. apply (Permutation_in _ (Permutation_sym Hrs)) in Hb. clear - F Hb.
      induction F as [|ip ia l l' [H1 H2] F IH]; [destruct Hb|]. destruct Hb as [-> | Hb]; [exact H2|auto].
Qed.

(** The same for server operations. *)
Fixpoint scosts {A} (dims : nat -> option nat) (p : sprog A) (e : event) (n : nat) (R : A -> Prop) : Prop :=
  match p with
  | SRet a => n = 0 /\ R a
  | SFail _ => True
  | @SPar _ B tasks k => exists (ev : nat -> list event) (Q : nat -> B -> Prop) n', n = cnt e (flat_map ev (seq 0 (length tasks))) + n' /\
      (forall i p, nth_error tasks i = Some p -> emits dims p (ev i) (Q i)) /\
      forall rs, length rs = length tasks -> (forall i b, nth_error rs i = Some b -> Q i b) -> scosts dims (k rs) e n' R
  | SReduce n0 k => forall t, items t = n0 -> scosts dims (k t) e n R
  end.
Lemma scosts_sound {A} dims pref (p : sprog A) e R : forall m c a m2 n, scosts dims p e n R -> (forall r, mlen m r = dims r) -> scourse pref p m c (Ok a) m2 -> times e c = n /\ forall r, mlen m2 r = dims r.
Proof.
  induction p as [a0|x|B tasks k IH|n0 k IH]; intros m c a m2 n H Hd Hc; destruct c as [|qn obs rest|t rest]; cbn [scosts scourse times] in *; try contradiction.
  - destruct H, Hc. subst. auto.
  - destruct Hc; discriminate.
  - destruct H as (ev & Q & n' & -> & Hev & Hk). destruct Hc as (queues & ws & m1 & _ & Hp & Ho & [(w & x & _ & _ & _ & _ & Hx & _)|(rss & rs & Hr & Hrs & Hc)]); [discriminate|].
    destruct (loop_counts dims pref tasks queues m obs ws m1 rss rs ev Q Hd Hev Hp Ho Hr Hrs) as (H1 & H2 & H3 & H4). rewrite H1.
    destruct (IH rs m1 rest a m2 n' (Hk rs H2 H3) H4 Hc) as [-> H5]. split; [reflexivity|exact H5].
  - destruct Hc as [Ht Hc]. exact (IH t m rest a m2 n (H t Ht) Hd Hc).
Qed.
Lemma scosts_bind {A B} dims (p : sprog A) (f : A -> sprog B) e R R' n2 : forall n1,
  scosts dims p e n1 R -> (forall a, R a -> scosts dims (f a) e n2 R') -> scosts dims (sbind p f) e (n1 + n2) R'.
Proof.
  induction p as [a0|x|C tasks k IH|n0 k IH]; intros n1 H Hf; cbn [sbind scosts] in *.
  - destruct H as [-> H]. apply Hf, H.
  - exact I.
  - destruct H as (ev & Q & n' & -> & Hev & Hk). exists ev, Q, (n' + n2). split; [lia|]. split; [exact Hev|]. intros rs H1 H2. apply IH; auto.
  - intros t Ht. apply IH; auto.
Qed.
