(** * Parallel loops: determinism, deadlock freedom, termination, mutual exclusion *)
From Verif Require Import MBase MPoly MRlwe MSched PfSched.
From Coq Require Import Permutation.
Local Open Scope nat_scope.

(** Tasks with separate footprints. *)
Definition separable {A} (sh : list nat) (tasks : list (prog A)) : Prop :=
  exists Rd Wr : nat -> nat -> nat -> Prop,
    (forall i r c, Wr i r c \/ ~ Wr i r c) /\
    (forall i j r c, i <> j -> Wr i r c -> ~ Rd j r c /\ ~ Wr j r c) /\
    (forall i p, nth_error tasks i = Some p -> acc sh (Rd i) (Wr i) (fun _ => True) p).

Lemma number_from_nth {A} (l : list A) : forall a i x, In (i, x) (combine (seq a (length l)) l) <-> a <= i /\ nth_error l (i - a) = Some x.
Proof.
  induction l as [|y l IH]; intros a i x; cbn [length seq combine].
  - split; [intros []|]. intros [_ H]. destruct (i - a); discriminate.
  - cbn [In]. rewrite IH. split.
    + intros [H|[H1 H2]].
      * injection H as <- <-. split; [lia|]. rewrite Nat.sub_diag. reflexivity.
      * split; [lia|]. replace (i - a) with (S (i - S a)) by lia. exact H2.
    + intros [H1 H2]. destruct (Nat.eq_dec i a) as [->|].
      * left. rewrite Nat.sub_diag in H2. cbn in H2. congruence.
      * right. split; [lia|]. replace (i - a) with (S (i - S a)) in H2 by lia. exact H2.
Qed.
Lemma number_nth {A} (l : list A) i x : In (i, x) (number l) <-> nth_error l i = Some x.
Proof. unfold number. rewrite number_from_nth, Nat.sub_0_r. split; [intros [_ H]; exact H|intros H; split; [lia|exact H]]. Qed.
Lemma number_fst {A} (l : list A) : map fst (number l) = seq 0 (length l).
Proof. unfold number. generalize 0. induction l as [|x l IH]; intros a; cbn; [reflexivity|]. f_equal. apply IH. Qed.
Lemma number_length {A} (l : list A) : length (number l) = length l.
Proof. unfold number. rewrite combine_length, seq_length. lia. Qed.

Section Queue.
Context {A : Type}.
Variable sh : list nat.
Variables Rd Wr : nat -> nat -> nat -> Prop.
Hypothesis sep : forall i j r c, i <> j -> Wr i r c -> ~ Rd j r c /\ ~ Wr j r c.
Variable m0 : mem.
Hypothesis Hm0 : shape m0 = sh.
Let F i r c := Rd i r c \/ Wr i r c.
Definition qacc (qu : list (nat * prog A)) : Prop :=
  NoDup (map fst qu) /\ forall i p, In (i, p) qu -> acc sh (Rd i) (Wr i) (fun _ => True) p.

Lemma qacc_cons i p qu : qacc ((i, p) :: qu) ->
  ~ In i (map fst qu) /\ acc sh (Rd i) (Wr i) (fun _ => True) p /\ qacc qu.
Proof.
  intros [Hn Ha]. cbn in Hn. inversion Hn; subst. split; [assumption|]. split; [apply Ha; left; reflexivity|].
  split; [assumption|]. intros j q Hj. apply Ha; right; exact Hj.
Qed.
Lemma in_fst {B C} (i : B) (p : C) qu : In (i, p) qu -> In i (map fst qu).
Proof. intros H. apply (in_map fst) in H. exact H. Qed.

(** After task [i] alone, the memory of the other tasks is untouched. *)
Lemma task_step i p qu m : qacc ((i, p) :: qu) -> shape m = sh ->
  (forall j q, In (j, q) ((i, p) :: qu) -> agree (F j) m m0) ->
  fst (run p m) = fst (run p m0) /\ shape (snd (run p m)) = sh /\
  agree (F i) (snd (run p m)) (snd (run p m0)) /\
  (forall j q, In (j, q) qu -> agree (F j) (snd (run p m)) m0) /\
  (forall r c, ~ Wr i r c -> mget (snd (run p m)) r c = mget m r c).
Proof.
  intros Hq Hs Hag. destruct (qacc_cons _ _ _ Hq) as (Hni & Ha & Hq').
  destruct (run_frame _ _ _ _ _ Ha m m0 (F i)) as [R1 R2]; try assumption.
  { intros r c H; left; exact H. } { apply (Hag i p); left; reflexivity. }
  split; [exact R1|]. split; [rewrite run_shape; exact Hs|]. split; [exact R2|]. split.
  - intros j q Hj r c HF. assert (i <> j) as Hne by (intros ->; apply Hni; eapply in_fst; exact Hj).
    rewrite (run_unchanged _ _ _ _ _ Ha m r c Hs).
    + apply (Hag j q); [right; exact Hj|exact HF].
    + intros HW. destruct (sep i j r c Hne HW). destruct HF; contradiction.
  - intros r c Hn. apply (run_unchanged _ _ _ _ _ Ha m r c Hs Hn).
Qed.

Lemma wprog_ok : forall qu m, qacc qu -> shape m = sh -> (forall i p, In (i, p) qu -> agree (F i) m m0) ->
  (forall i p, In (i, p) qu -> exists a, fst (run p m0) = Ok a) ->
  exists rs m', run (wprog qu) m = (Ok rs, m') /\
    Forall2 (fun ip ia => fst ip = fst ia /\ fst (run (snd ip) m0) = Ok (snd ia)) qu rs /\
    (forall i p, In (i, p) qu -> agree (F i) m' (snd (run p m0))) /\
    (forall r c, (forall i p, In (i, p) qu -> ~ Wr i r c) -> mget m' r c = mget m r c).
Proof.
  induction qu as [|[i p] qu IH]; intros m Hq Hs Hag Hok; cbn [wprog].
  - exists [], m. repeat split; auto. intros i p [].
  - destruct (task_step i p qu m Hq Hs Hag) as (R1 & S1 & R2 & R3 & R4).
    destruct (Hok i p (or_introl eq_refl)) as [a Ea].
    rewrite run_bind. destruct (run p m) as [[b|e] m1] eqn:E1; cbn [fst snd] in *; [|congruence].
    rewrite <- R1 in Ea. injection Ea as ->.
    destruct (qacc_cons _ _ _ Hq) as (Hni & Ha & Hq').
    destruct (IH m1 Hq' S1 R3) as (rs & m' & E2 & HF & Hag' & Hun).
    { intros j q Hj. apply (Hok j q); right; exact Hj. }
    exists ((i, a) :: rs), m'. rewrite run_bind, E2. cbn [run]. split; [reflexivity|]. split; [|split].
    + constructor; [cbn; split; [reflexivity|congruence]|exact HF].
    + intros j q [Hj|Hj].
      * injection Hj as <- <-. intros r c Hr. rewrite <- R2 by exact Hr. apply Hun. intros k s Hk.
        assert (k <> i) as Hne by (intros ->; apply Hni; eapply in_fst; exact Hk).
        intros HW. destruct (sep k i r c Hne HW). destruct Hr; contradiction.
      * apply Hag'; exact Hj.
    + intros r c Hn. rewrite Hun by (intros k s Hk; apply (Hn k s); right; exact Hk). apply R4. apply (Hn i p); left; reflexivity.
Qed.
Lemma wprog_panic : forall qu m, qacc qu -> shape m = sh -> (forall i p, In (i, p) qu -> agree (F i) m m0) ->
  (exists i p e, In (i, p) qu /\ fst (run p m0) = Panic e) ->
  exists e m', run (wprog qu) m = (Panic e, m').
Proof.
  induction qu as [|[i p] qu IH]; intros m Hq Hs Hag (k & s & e & Hin & He); [destruct Hin|]. cbn [wprog].
  destruct (task_step i p qu m Hq Hs Hag) as (R1 & S1 & R2 & R3 & R4).
  rewrite run_bind. destruct (run p m) as [[b|e1] m1] eqn:E1; cbn [fst snd] in *; [|eauto].
  destruct Hin as [Hin|Hin]; [injection Hin as <- <-; congruence|].
  destruct (qacc_cons _ _ _ Hq) as (Hni & Ha & Hq').
  destruct (IH m1 Hq' S1 R3) as (e2 & m' & E2); [eauto|]. rewrite run_bind, E2. eauto.
Qed.
End Queue.

Lemma par_run_wprog_from {A} (tasks : list (prog A)) : forall a m,
  run (pmapM (fun p => p) tasks) m =
  match run (wprog (combine (seq a (length tasks)) tasks)) m with (Ok rs, m') => (Ok (map snd rs), m') | (Panic e, m') => (Panic e, m') end.
Proof.
  induction tasks as [|p tasks IH]; intros a m; cbn [length seq combine pmapM wprog]; [reflexivity|].
  rewrite !run_bind. destruct (run p m) as [[b|e] m1]; [|reflexivity]. rewrite !run_bind, (IH (S a) m1).
  destruct (run (wprog _) m1) as [[rs|e] m2]; reflexivity.
Qed.
Lemma par_run_wprog {A} (tasks : list (prog A)) m :
  par_run tasks m = match run (wprog (number tasks)) m with (Ok rs, m') => (Ok (map snd rs), m') | (Panic e, m') => (Panic e, m') end.
Proof. apply par_run_wprog_from. Qed.

Lemma exists_lt_dec (Q : nat -> Prop) N : (forall i, Q i \/ ~ Q i) -> (exists i, i < N /\ Q i) \/ (forall i, i < N -> ~ Q i).
Proof.
  intros Hd. induction N as [|N [(i & Hi & Hq)|IH]]; [right; lia|left; exists i; split; [lia|exact Hq]|].
  destruct (Hd N) as [H|H]; [left; exists N; split; [lia|exact H]|].
  right. intros i Hi. destruct (Nat.eq_dec i N) as [->|]; [exact H|apply IH; lia].
Qed.
Lemma all_ok_dec {A} (tasks : list (prog A)) m0 :
  (forall i p, nth_error tasks i = Some p -> exists a, fst (run p m0) = Ok a) \/
  (exists i p e, nth_error tasks i = Some p /\ fst (run p m0) = Panic e).
Proof.
  induction tasks as [|p tasks IH].
  - left. intros [|i] p; discriminate.
  - destruct (fst (run p m0)) as [a|e] eqn:E; [|right; exists 0, p, e; auto].
    destruct IH as [IH|(i & q & e & Hi & He)]; [|right; exists (S i), q, e; auto].
    left. intros [|i] q Hq; cbn in Hq; [injection Hq as <-; eauto|eapply IH; exact Hq].
Qed.

Lemma nodup_app_r {B} (l l' : list B) : NoDup (l ++ l') -> NoDup l'.
Proof. induction l as [|x l IH]; cbn; intros H; [exact H|]. inversion H; auto. Qed.

Section Par.
Context {A : Type}.
Variable pref : bool.
Variable sh : list nat.
Variable tasks : list (prog A).
Variable m0 : mem.
Hypothesis Hm0 : shape m0 = sh.
Variables Rd Wr : nat -> nat -> nat -> Prop.
Hypothesis dec : forall i r c, Wr i r c \/ ~ Wr i r c.
Hypothesis sep : forall i j r c, i <> j -> Wr i r c -> ~ Rd j r c /\ ~ Wr j r c.
Hypothesis Hacc : forall i p, nth_error tasks i = Some p -> acc sh (Rd i) (Wr i) (fun _ => True) p.

Lemma nodup_concat {B} (qs : list (list B)) : NoDup (concat qs) -> forall w1 w2 q1 q2 x,
  nth_error qs w1 = Some q1 -> nth_error qs w2 = Some q2 -> In x q1 -> In x q2 -> w1 = w2.
Proof.
  induction qs as [|q qs IH]; intros Hn w1 w2 q1 q2 x H1 H2 I1 I2; [destruct w1; discriminate|].
  cbn in Hn. apply nodup_app_r in Hn as Hn2.
  assert (forall q' w, nth_error qs w = Some q' -> In x q -> In x q' -> False) as Hx.
  { intros q' w Hw Ia Ib. assert (In x (concat qs)) as Ic by (apply in_concat; exists q'; split; [eapply nth_error_In; exact Hw|exact Ib]).
    clear - Hn Ia Ic. induction q as [|y q IH]; [destruct Ia|]. cbn in Hn. inversion Hn; subst. destruct Ia as [->|Ia]; [apply H1; apply in_or_app; right; exact Ic|auto]. }
  destruct w1 as [|w1], w2 as [|w2]; cbn in *.
  - reflexivity.
  - injection H1 as <-. exfalso. eapply Hx; eassumption.
  - injection H2 as <-. exfalso. eapply Hx; eassumption.
  - f_equal. eapply IH; eassumption.
Qed.
Lemma nodup_member {B} (qs : list (list B)) w qu : NoDup (concat qs) -> nth_error qs w = Some qu -> NoDup qu.
Proof.
  revert w; induction qs as [|q qs IH]; intros [|w] Hn H; cbn in *; try discriminate.
  - injection H as <-. clear IH. induction q as [|y q IHq]; [constructor|]. cbn in Hn. inversion Hn; subst. constructor; [|apply IHq; assumption].
    intros Hy. apply H1. apply in_or_app; left; exact Hy.
  - eapply IH; [eapply nodup_app_r; exact Hn|exact H].
Qed.

Variable queues : list (list (nat * prog A)).
Hypothesis Hperm : Permutation (concat queues) (number tasks).

Lemma queue_in w qu i p : nth_error queues w = Some qu -> In (i, p) qu -> nth_error tasks i = Some p.
Proof.
  intros Hw Hi. apply number_nth. eapply Permutation_in; [exact Hperm|]. apply in_concat. exists qu. split; [eapply nth_error_In; exact Hw|exact Hi].
Qed.
Lemma concat_fst_nodup : NoDup (concat (map (map fst) queues)).
Proof.
  rewrite <- concat_map. eapply Permutation_NoDup; [apply Permutation_map; symmetry; exact Hperm|]. rewrite number_fst. apply seq_NoDup.
Qed.
Lemma queue_qacc w qu : nth_error queues w = Some qu -> qacc sh Rd Wr qu.
Proof.
  intros Hw. split.
  - eapply nodup_member; [apply concat_fst_nodup|]. rewrite nth_error_map, Hw. reflexivity.
  - intros i p Hi. apply Hacc. eapply queue_in; eassumption.
Qed.
Lemma number_qacc : qacc sh Rd Wr (number tasks).
Proof. split; [rewrite number_fst; apply seq_NoDup|]. intros i p Hi. apply Hacc, number_nth, Hi. Qed.

(** Footprints of workers. *)
Definition RdW w r c := exists qu i p, nth_error queues w = Some qu /\ In (i, p) qu /\ Rd i r c.
Definition WrW w r c := exists qu i p, nth_error queues w = Some qu /\ In (i, p) qu /\ Wr i r c.
Lemma sepW w w' r c : w <> w' -> WrW w r c -> ~ RdW w' r c /\ ~ WrW w' r c.
Proof.
  intros Hne (qu & i & p & Hw & Hi & HW).
  assert (forall qu' j q, nth_error queues w' = Some qu' -> In (j, q) qu' -> i <> j) as Hij.
  { intros qu' j q Hw' Hj <-. apply Hne. eapply (nodup_concat _ concat_fst_nodup w w' (map fst qu) (map fst qu') i).
    - now rewrite nth_error_map, Hw. - now rewrite nth_error_map, Hw'. - eapply in_fst; eassumption. - eapply in_fst; eassumption. }
  split; intros (qu' & j & q & Hw' & Hj & HR); destruct (sep i j r c (Hij _ _ _ Hw' Hj) HW); contradiction.
Qed.
Lemma wprog_acc : forall qu : list (nat * prog A), (forall i p, In (i, p) qu -> acc sh (Rd i) (Wr i) (fun _ => True) p) ->
  acc sh (fun r c => exists i p, In (i, p) qu /\ Rd i r c) (fun r c => exists i p, In (i, p) qu /\ Wr i r c) (fun _ => True) (wprog qu).
Proof.
  induction qu as [|[i p] qu IH]; intros Ha; cbn [wprog]; [constructor; exact I|].
  eapply acc_bind.
  - eapply acc_weaken; [..|apply (Ha i p); left; reflexivity]; [intros r c H|intros r c H|intros a H; exact H]; exists i, p; (split; [left; reflexivity|exact H]).
  - intros a _. eapply acc_bind; [|intros rs _; constructor; exact I].
    eapply acc_weaken; [..|apply IH; intros j q Hj; apply Ha; right; exact Hj]; [..|intros x H; exact H];
      (intros r c (j & q & Hj & H); exists j, q; (split; [right; exact Hj|exact H])).
Qed.
Lemma wprog_accW w (qu : list (nat * prog A)) : nth_error queues w = Some qu -> acc sh (RdW w) (WrW w) (fun _ => True) (wprog qu).
Proof.
  intros Hw. eapply acc_weaken; [..|apply wprog_acc; apply (queue_qacc w qu Hw)]; [..|intros x H; exact H];
    (intros r c (i & p & Hi & H); exists qu, i, p; auto).
Qed.

Lemma start_map : start queues = map (fun p => {| w_prog := p; w_held := [] |}) (map wprog queues).
Proof. unfold start. rewrite map_map. reflexivity. Qed.
Lemma start_inv : iinv sh RdW WrW (map wprog queues) m0 (start queues) m0.
Proof.
  rewrite start_map. apply iinv_init; [exact Hm0|]. intros w p Hp. rewrite nth_error_map in Hp.
  destruct (nth_error queues w) as [qu|] eqn:E; [|discriminate]. injection Hp as <-. apply wprog_accW; exact E.
Qed.

(** All executions from these queues: what a finished state looks like. *)
Lemma finished_state ws m' : steps pref (start queues) m0 ws m' ->
  length ws = length queues /\ shape m' = sh /\
  (forall w wk qu r, nth_error ws w = Some wk -> nth_error queues w = Some qu -> result (w_prog wk) = Some r ->
     r = fst (run (wprog qu) m0)) /\
  (finished ws -> (forall i p, nth_error tasks i = Some p -> exists a, fst (run p m0) = Ok a) ->
     m' = snd (par_run tasks m0)).
Proof.
  intros Hst. pose proof (iinv_steps pref sh RdW WrW sepW _ _ _ _ _ _ Hst start_inv) as Hinv.
  pose proof Hinv as (Hl & Hs & Ha & _). rewrite map_length in Hl.
  destruct (iinv_final sh RdW WrW _ _ _ _ Hinv) as [Hf Hu].
  split; [exact Hl|]. split; [exact Hs|]. split.
  - intros w wk qu r Hw Hq Hr. eapply Hf; [exact Hw|rewrite nth_error_map, Hq; reflexivity|exact Hr].
  - intros Hfin Hok.
    destruct (wprog_ok sh Rd Wr sep m0 Hm0 (number tasks) m0 number_qacc Hm0) as (rs & m1 & E1 & HF1 & Hag1 & Hun1).
    { intros i p _ r c _; reflexivity. } { intros i p Hi. eapply Hok, number_nth, Hi. }
    rewrite par_run_wprog, E1. cbn [snd]. apply mem_ext.
    { rewrite Hs. change m1 with (snd (Ok rs, m1)). rewrite <- E1, run_shape. symmetry; exact Hm0. }
    intros r c. destruct (exists_lt_dec (fun i => Wr i r c) (length tasks) (fun i => dec i r c)) as [(i & Hi & HW)|Hno].
    + destruct (nth_error tasks i) as [p|] eqn:Ep; [|apply nth_error_None in Ep; lia].
      rewrite (Hag1 i p) by (try (apply number_nth; exact Ep); right; exact HW).
      assert (In (i, p) (concat queues)) as Hin by (eapply Permutation_in; [symmetry; exact Hperm|apply number_nth; exact Ep]).
      apply in_concat in Hin as (qu & Hqu & Hin). apply In_nth_error in Hqu as (w & Hw).
      destruct (nth_error ws w) as [wk|] eqn:Ewk; [|apply nth_error_None in Ewk; assert (w < length queues) by (apply nth_error_Some; congruence); lia].
      destruct (result (w_prog wk)) as [rr|] eqn:Er; [|exfalso; eapply Hfin; [eapply nth_error_In; exact Ewk|exact Er]].
      destruct (Hf w wk (wprog qu) rr Ewk) as [_ Hm]; [rewrite nth_error_map, Hw; reflexivity|exact Er|].
      rewrite Hm by (right; exists qu, i, p; auto).
      destruct (wprog_ok sh Rd Wr sep m0 Hm0 qu m0 (queue_qacc w qu Hw) Hm0) as (rs2 & m2 & E2 & _ & Hag2 & _).
      { intros j q _ r' c' _; reflexivity. } { intros j q Hj. eapply Hok, (queue_in w qu); eassumption. }
      rewrite E2. cbn [snd]. apply (Hag2 i p Hin). right; exact HW.
    + rewrite Hun1. 2:{ intros i p Hi. apply number_nth in Hi. apply Hno. apply nth_error_Some. congruence. }
      apply Hu. intros w _ (qu & i & p & Hw & Hi & HW). apply (Hno i); [|exact HW].
      apply nth_error_Some. rewrite (queue_in w qu i p Hw Hi). discriminate.
Qed.

Lemma worker_results w qu rs : nth_error queues w = Some qu -> fst (run (wprog qu) m0) = Ok rs ->
  Forall (fun ia => exists p, nth_error tasks (fst ia) = Some p /\ fst (run p m0) = Ok (snd ia)) rs.
Proof.
  intros Hw E.
  destruct (all_ok_dec (map snd qu) m0) as [Hok|(k & p & e & Hk & He)].
  - destruct (wprog_ok sh Rd Wr sep m0 Hm0 qu m0 (queue_qacc w qu Hw) Hm0) as (rs2 & m2 & E2 & HF & _ & _).
    { intros j q _ r' c' _; reflexivity. }
    { intros j q Hj. apply (in_map snd) in Hj. apply In_nth_error in Hj as (k & Hk). eapply Hok; exact Hk. }
    rewrite E2 in E. cbn in E. injection E as <-.
    assert (forall i p, In (i, p) qu -> nth_error tasks i = Some p) as Hin by (intros; eapply queue_in; eassumption).
    clear - HF Hin. induction HF as [|[i p] [j a] qu rs [H1 H2] HF IH]; constructor; cbn in *; subst.
    + exists p. split; [apply Hin; left; reflexivity|exact H2].
    + apply IH. intros; apply Hin; right; assumption.
  - apply nth_error_In, in_map_iff in Hk as ([i p'] & Hp & Hin). cbn in Hp. subst p'.
    destruct (wprog_panic sh Rd Wr sep m0 Hm0 qu m0 (queue_qacc w qu Hw) Hm0) as (e2 & m2 & E2).
    { intros j q _ r' c' _; reflexivity. } { exists i, p, e; auto. }
    rewrite E2 in E. discriminate.
Qed.
End Par.

Lemma par_run_ok_solo {A} sh (tasks : list (prog A)) m0 : shape m0 = sh -> separable sh tasks ->
  (forall rs m1, par_run tasks m0 = (Ok rs, m1) ->
     length rs = length tasks /\ forall i p, nth_error tasks i = Some p -> exists a, fst (run p m0) = Ok a /\ nth_error rs i = Some a) /\
  (forall e m1, par_run tasks m0 = (Panic e, m1) -> exists i p e', nth_error tasks i = Some p /\ fst (run p m0) = Panic e').
Proof.
  intros Hm0 (Rd & Wr & dec & sep & Hacc).
  destruct (all_ok_dec tasks m0) as [Hok|Hbad].
  - destruct (wprog_ok sh Rd Wr sep m0 Hm0 (number tasks) m0 (number_qacc sh tasks Rd Wr Hacc) Hm0) as (rs2 & m2 & E2 & HF & _ & _).
    { intros j q _ r' c' _; reflexivity. } { intros i p Hi. eapply Hok, number_nth, Hi. }
    rewrite par_run_wprog, E2. split; [|intros e m1 H; discriminate]. intros rs m1 H. injection H as <- <-.
    split.
    + rewrite map_length. rewrite <- (number_length tasks). clear - HF. induction HF; cbn; auto.
    + intros i p Hp. destruct (Hok i p Hp) as [a Ha]. exists a. split; [exact Ha|].
      assert (forall tasks rs2 a0, Forall2 (fun ip ia => fst ip = fst ia /\ fst (run (snd ip) m0) = Ok (snd ia)) (combine (seq a0 (length tasks)) tasks) rs2 ->
        forall i p, nth_error tasks i = Some p -> fst (run p m0) = Ok a -> nth_error (map snd rs2) i = Some a) as Hgen; [|eapply Hgen; eassumption].
      clear. induction tasks as [|q tasks IH]; intros rs2 a0 HF i p Hp Ha; [destruct i; discriminate|].
      cbn in HF. inversion HF as [|? [j b] ? rs3 [H1 H2] HF3]; subst. cbn in *. destruct i as [|i]; cbn in *; [|eapply IH; eassumption].
      injection Hp as ->. congruence.
  - destruct Hbad as (i & p & e & Hi & He).
    destruct (wprog_panic sh Rd Wr sep m0 Hm0 (number tasks) m0 (number_qacc sh tasks Rd Wr Hacc) Hm0) as (e2 & m2 & E2).
    { intros j q _ r' c' _; reflexivity. } { exists i, p, e. split; [apply number_nth; exact Hi|exact He]. }
    rewrite par_run_wprog, E2. split; [intros rs m1 H; discriminate|]. intros; eauto.
Qed.

(** Every execution of a parallel loop with separate footprints gives the sequential result. *)
Lemma par_exec_det {A} pref sh (tasks : list (prog A)) m0 o m' : shape m0 = sh -> separable sh tasks ->
  par_exec pref tasks m0 o m' ->
  match par_run tasks m0 with
  | (Ok rs, m1) => o = Ok rs /\ m' = m1
  | (Panic _, _) => exists e, o = Panic e
  end.
Proof.
  intros Hm0 Hsep Hex. pose proof (par_run_ok_solo sh tasks m0 Hm0 Hsep) as [Hso Hsp].
  destruct Hsep as (Rd & Wr & dec & sep & Hacc).
  destruct Hex as [queues ws rss rs m' Hp Hst Hws Hrs | queues ws m' e wk Hp Hst Hfin Hin He].
  - destruct (finished_state pref sh tasks m0 Hm0 Rd Wr dec sep Hacc queues Hp ws m' Hst) as (Hl & Hs & Hres & Hmem).
    assert (finished ws) as Hfin.
    { intros w Hw. apply In_nth_error in Hw as (i & Hi). 
      assert (nth_error (map (fun w => w_prog w) ws) i = Some (w_prog w)) as H by (now rewrite nth_error_map, Hi).
      rewrite Hws, nth_error_map in H. destruct (nth_error rss i); cbn in H; [injection H as <-; discriminate|discriminate]. }
    assert (forall k qu, nth_error queues k = Some qu -> exists r, nth_error rss k = Some r /\ fst (run (wprog qu) m0) = Ok r) as Hw.
    { intros k qu Hk. destruct (nth_error ws k) as [wk|] eqn:Ek; [|apply nth_error_None in Ek; assert (k < length queues) by (apply nth_error_Some; congruence); lia].
      assert (nth_error (map (fun w => w_prog w) ws) k = Some (w_prog wk)) as H by (now rewrite nth_error_map, Ek).
      rewrite Hws, nth_error_map in H. destruct (nth_error rss k) as [r|] eqn:Er; cbn in H; [|discriminate]. injection H as H.
      exists r. split; [reflexivity|]. symmetry. eapply Hres; [exact Ek|exact Hk|]. rewrite <- H. reflexivity. }
    assert (length rss = length queues) as Hlr by (rewrite <- Hl, <- (map_length (fun w => w_prog w) ws), Hws, map_length; reflexivity).
    assert (forall i p, nth_error tasks i = Some p -> exists a, fst (run p m0) = Ok a) as Hok.
    { intros i p Hi. assert (In (i, p) (concat queues)) as Hin by (eapply Permutation_in; [symmetry; exact Hp|apply number_nth; exact Hi]).
      apply in_concat in Hin as (qu & Hqu & Hin). apply In_nth_error in Hqu as (k & Hk). destruct (Hw k qu Hk) as (r & _ & Er).
      destruct (fst (run p m0)) as [a|e] eqn:E; [eauto|].
      destruct (wprog_panic sh Rd Wr sep m0 Hm0 qu m0 (queue_qacc sh tasks m0 Hm0 Rd Wr Hacc queues Hp k qu Hk) Hm0) as (e2 & m2 & E2).
      { intros j q _ r' c' _; reflexivity. } { exists i, p, e; auto. }
      rewrite E2 in Er. discriminate. }
    assert (forall i a, In (i, a) (concat rss) -> exists p, nth_error tasks i = Some p /\ fst (run p m0) = Ok a) as Hval.
    { intros i a Hin. apply in_concat in Hin as (r & Hr & Hin). apply In_nth_error in Hr as (k & Hk).
      destruct (nth_error queues k) as [qu|] eqn:Eq; [|apply nth_error_None in Eq; assert (k < length rss) by (apply nth_error_Some; congruence); lia].
      destruct (Hw k qu Eq) as (r' & Er' & Erun). rewrite Hk in Er'. injection Er' as <-.
      pose proof (worker_results sh tasks m0 Hm0 Rd Wr sep Hacc queues Hp k qu r Eq Erun) as HF. rewrite Forall_forall in HF.
      destruct (HF _ Hin) as (p & H1 & H2). cbn in *. eauto. }
    destruct (par_run tasks m0) as [[rs0|e0] m1] eqn:Epr.
    + destruct (Hso rs0 m1 eq_refl) as [Hl0 Hv0]. split; [|rewrite (Hmem Hfin Hok); reflexivity]. f_equal.
      apply nth_error_ext. intros i.
      destruct (nth_error rs i) as [a|] eqn:Ea.
      * assert (In (i, a) (concat rss)) as Hin by (eapply Permutation_in; [symmetry; exact Hrs|apply number_nth; exact Ea]).
        destruct (Hval i a Hin) as (p & H1 & H2). destruct (Hv0 i p H1) as (b & H3 & H4). congruence.
      * (* lengths agree *)
        symmetry. apply nth_error_None. apply nth_error_None in Ea. rewrite Hl0.
        assert (length rs = length tasks) as <-; [|exact Ea].
        rewrite <- (number_length rs), <- (Permutation_length Hrs), <- (number_length tasks), <- (Permutation_length Hp).
        assert (forall (qs : list (list (nat * prog A))) (rs : list (list (nat * A))), length rs = length qs ->
          (forall k qu, nth_error qs k = Some qu -> exists r, nth_error rs k = Some r /\ length r = length qu) -> length (concat rs) = length (concat qs)) as Hlen.
        { clear. induction qs as [|q qs IH]; intros [|r rs] Hl H; cbn in *; try discriminate; [reflexivity|].
          rewrite !app_length, (IH rs); [|lia|intros k qu Hk; apply (H (S k) qu Hk)].
          destruct (H 0 q eq_refl) as (r' & E & L). injection E as <-. lia. }
        apply Hlen; [exact Hlr|]. intros k qu Hk. destruct (Hw k qu Hk) as (r & Er & Erun). exists r. split; [exact Er|].
        destruct (wprog_ok sh Rd Wr sep m0 Hm0 qu m0 (queue_qacc sh tasks m0 Hm0 Rd Wr Hacc queues Hp k qu Hk) Hm0) as (rs2 & m2 & E2 & HF & _ & _).
        { intros j q _ r' c' _; reflexivity. } { intros j q Hj. eapply Hok, (queue_in tasks queues Hp k qu); eassumption. }
        rewrite E2 in Erun. cbn in Erun. injection Erun as <-. clear - HF. induction HF; cbn; auto.
    + destruct (Hsp e0 m1 eq_refl) as (i & p & e' & H1 & H2). destruct (Hok i p H1) as [a Ha]. congruence.
  - destruct (par_run tasks m0) as [[rs0|e0] m1] eqn:Epr; [|eauto]. exfalso.
    destruct (Hso rs0 m1 eq_refl) as [Hl0 Hv0].
    destruct (finished_state pref sh tasks m0 Hm0 Rd Wr dec sep Hacc queues Hp ws m' Hst) as (Hl & Hs & Hres & _).
    apply In_nth_error in Hin as (k & Hk).
    destruct (nth_error queues k) as [qu|] eqn:Eq; [|apply nth_error_None in Eq; assert (k < length ws) by (apply nth_error_Some; congruence); lia].
    pose proof (Hres k wk qu (Panic e) Hk Eq ltac:(rewrite He; reflexivity)) as Hr.
    destruct (wprog_ok sh Rd Wr sep m0 Hm0 qu m0 (queue_qacc sh tasks m0 Hm0 Rd Wr Hacc queues Hp k qu Eq) Hm0) as (rs2 & m2 & E2 & _).
    { intros j q _ r' c' _; reflexivity. }
    { intros j q Hj. destruct (Hv0 j q) as (a & Ha & _); [eapply (queue_in tasks queues Hp); eassumption|eauto]. }
    rewrite E2 in Hr. discriminate.
Qed.
