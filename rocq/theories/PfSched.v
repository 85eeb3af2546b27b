(** * Proofs about threads and locks *)
From Verif Require Import MBase MPoly MRlwe MSched.
From Coq Require Import Permutation.
Local Open Scope nat_scope.

Lemma nth_error_ext {A} (l l' : list A) : (forall i, nth_error l i = nth_error l' i) -> l = l'.
Proof.
  revert l'; induction l as [|x l IH]; intros [|y l'] H; [reflexivity|specialize (H 0); discriminate|specialize (H 0); discriminate|].
  f_equal; [specialize (H 0); cbn in H; congruence|]. apply IH. intros i. exact (H (S i)).
Qed.

(** ** Memory *)
Definition shape (m : mem) : list nat := map (@length rlwe) m.

Lemma mlen_shape m r : mlen m r = nth_error (shape m) r.
Proof. unfold mlen, shape. now rewrite nth_error_map. Qed.
Lemma mget_some_shape m r c : (exists v, mget m r c = Some v) <-> exists x, nth_error (shape m) r = Some x /\ c < x.
Proof.
  unfold mget, shape. rewrite nth_error_map. destruct (nth_error m r) as [row|]; cbn.
  - split.
    + intros [v H]. exists (length row). split; [reflexivity|]. apply nth_error_Some. congruence.
    + intros (x & E & H). injection E as <-. destruct (nth_error row c) eqn:F; [eauto|]. apply nth_error_None in F. lia.
  - split; [intros [v H]; discriminate|intros (x & H & _); discriminate].
Qed.
Lemma mset_shape m r c v : shape (mset m r c v) = shape m.
Proof.
  unfold mset. destruct (nth_error m r) as [row|] eqn:E; [|reflexivity]. unfold shape.
  apply nth_error_ext. intros i. rewrite !nth_error_map, nth_error_upd. destruct (Nat.eqb_spec r i) as [->|]; [|reflexivity].
  rewrite E. cbn. now rewrite upd_length.
Qed.
Lemma mget_mset m r c v r' c' : mget (mset m r c v) r' c' =
  if (r =? r') && (c =? c') then (match mget m r' c' with Some _ => Some v | None => None end) else mget m r' c'.
Proof.
  unfold mset, mget. destruct (nth_error m r) as [row|] eqn:E.
  - rewrite nth_error_upd. destruct (Nat.eqb_spec r r') as [<-|]; cbn; [|reflexivity]. rewrite E, nth_error_upd.
    destruct (Nat.eqb_spec c c') as [<-|]; reflexivity.
  - destruct (Nat.eqb_spec r r') as [<-|]; cbn; [|reflexivity]. rewrite E. now destruct (c =? c').
Qed.
Lemma mem_ext m m' : shape m = shape m' -> (forall r c, mget m r c = mget m' r c) -> m = m'.
Proof.
  intros Hs Hg. apply nth_error_ext. intros r.
  assert (nth_error (shape m) r = nth_error (shape m') r) as H by now rewrite Hs.
  unfold shape in H. rewrite !nth_error_map in H. specialize (Hg r). unfold mget in Hg.
  destruct (nth_error m r) as [a|], (nth_error m' r) as [b|]; cbn in H; try discriminate; [|reflexivity].
  f_equal. apply nth_error_ext. exact Hg.
Qed.

(** ** Sequential runs *)
Lemma run_next {A} (p : prog A) m p' m' : next p m = Some (p', m') -> run p m = run p' m'.
Proof.
  destruct p; cbn; intros H; try discriminate.
  - injection H as <- <-. reflexivity.
  - injection H as <- <-. reflexivity.
  - injection H as <- <-. destruct (mlen m r); reflexivity.
  - injection H as <- <-. destruct (mget m r c); reflexivity.
  - injection H as H. destruct (mget m r c); injection H as <- <-; reflexivity.
Qed.
Lemma run_bind {A B} (p : prog A) (f : A -> prog B) m :
  run (pbind p f) m = match run p m with (Ok a, m') => run (f a) m' | (Panic e, m') => (Panic e, m') end.
Proof.
  revert m; induction p; cbn; intros m; auto.
  - destruct (mlen m r); auto.
  - destruct (mget m r c); auto.
  - destruct (mget m r c); auto.
Qed.
Lemma run_plift {A} (x : res A) m : run (plift x) m = (x, m).
Proof. destruct x; reflexivity. Qed.
Lemma run_shape {A} (p : prog A) m : shape (snd (run p m)) = shape m.
Proof.
  revert m; induction p; cbn; intros m; auto.
  - destruct (mlen m r); auto.
  - destruct (mget m r c); auto.
  - destruct (mget m r c); auto. rewrite IHp. apply mset_shape.
Qed.
Lemma next_shape {A} (p : prog A) m p' m' : next p m = Some (p', m') -> shape m' = shape m.
Proof.
  destruct p; cbn; intros H; try discriminate; injection H as H; try (injection H as <- <-); subst; auto.
  destruct (mget m r c); injection H as <- <-; [apply mset_shape|reflexivity].
Qed.
Lemma trace_bind {A B} (p : prog A) (f : A -> prog B) m :
  trace (pbind p f) m = trace p m ++ match run p m with (Ok a, m') => trace (f a) m' | (Panic _, _) => [] end.
Proof.
  revert m; induction p; cbn; intros m; auto; try (rewrite ?IHp; reflexivity).
  - destruct (mlen m r); [rewrite H|]; reflexivity.
  - destruct (mget m r c); [rewrite H|]; reflexivity.
  - destruct (mget m r c); [rewrite IHp|]; reflexivity.
Qed.

(** ** Footprints.  [acc sh Rd Wr Q p]: on memories of shape [sh], [p] loads only cells in [Rd], stores
    only into cells in [Wr] and returns only results in [Q], whatever values it loads. *)
Inductive acc {A} (sh : list nat) (Rd Wr : nat -> nat -> Prop) (Q : A -> Prop) : prog A -> Prop :=
| A_ret a : Q a -> acc sh Rd Wr Q (PRet a)
| A_fail e : acc sh Rd Wr Q (PFail e)
| A_lock l k : acc sh Rd Wr Q k -> acc sh Rd Wr Q (PLock l k)
| A_unlock l k : acc sh Rd Wr Q k -> acc sh Rd Wr Q (PUnlock l k)
| A_len r k : (forall x, nth_error sh r = Some x -> acc sh Rd Wr Q (k x)) -> acc sh Rd Wr Q (PLen r k)
| A_load r c k : Rd r c -> (forall v, acc sh Rd Wr Q (k v)) -> acc sh Rd Wr Q (PLoad r c k)
| A_store r c v k : Wr r c -> acc sh Rd Wr Q k -> acc sh Rd Wr Q (PStore r c v k).

Lemma acc_weaken {A} sh (Rd Wr Rd' Wr' : nat -> nat -> Prop) (Q Q' : A -> Prop) (p : prog A) :
  (forall r c, Rd r c -> Rd' r c) -> (forall r c, Wr r c -> Wr' r c) -> (forall a, Q a -> Q' a) ->
  acc sh Rd Wr Q p -> acc sh Rd' Wr' Q' p.
Proof. intros HR HW HQ H. induction H; constructor; auto. Qed.
Lemma acc_bind {A B} sh Rd Wr Q Q' (p : prog A) (f : A -> prog B) :
  acc sh Rd Wr Q p -> (forall a, Q a -> acc sh Rd Wr Q' (f a)) -> acc sh Rd Wr Q' (pbind p f).
Proof. intros Hp Hf. induction Hp; cbn; try (constructor; auto); auto. Qed.
Lemma acc_plift {A} sh Rd Wr (Q : A -> Prop) x : (forall a, x = Ok a -> Q a) -> acc sh Rd Wr Q (plift x).
Proof. destruct x; cbn; intros H; constructor. auto. Qed.
Lemma acc_pmapM {A B} sh Rd Wr (Q : A -> B -> Prop) (f : A -> prog B) l :
  (forall x, In x l -> acc sh Rd Wr (Q x) (f x)) -> acc sh Rd Wr (Forall2 Q l) (pmapM f l).
Proof.
  induction l as [|x l IH]; cbn; intros H; [constructor; constructor|].
  eapply acc_bind; [apply H; left; reflexivity|]. intros y Hy.
  eapply acc_bind; [apply IH; intros z Hz; apply H; right; exact Hz|]. intros ys Hys. constructor. constructor; assumption.
Qed.
Lemma acc_pfoldM {A S} sh Rd Wr (Q : S -> Prop) (f : S -> A -> prog S) l : 
  (forall s x, In x l -> Q s -> acc sh Rd Wr Q (f s x)) -> forall s, Q s -> acc sh Rd Wr Q (pfoldM f l s).
Proof.
  induction l as [|x l IH]; cbn; intros H s Hs; [constructor; exact Hs|].
  eapply acc_bind; [apply H; [left; reflexivity|exact Hs]|]. intros s' Hs'. apply IH; [|exact Hs']. intros s2 y Hy. apply H. right; exact Hy.
Qed.

Definition agree (Q : nat -> nat -> Prop) (m m' : mem) : Prop := forall r c, Q r c -> mget m r c = mget m' r c.
Lemma mget_isSome m m' r c : shape m = shape m' -> mget m r c = None -> mget m' r c = None.
Proof.
  intros Hs H. destruct (mget m' r c) eqn:E; [|reflexivity].
  assert (exists v, mget m r c = Some v) as [v Hv]; [|congruence].
  apply mget_some_shape. rewrite Hs. apply mget_some_shape. eauto.
Qed.

Lemma run_frame {A} sh Rd Wr Q (p : prog A) : acc sh Rd Wr Q p -> forall m m' (F : nat -> nat -> Prop),
  (forall r c, Rd r c -> F r c) -> shape m = sh -> shape m' = sh -> agree F m m' ->
  fst (run p m) = fst (run p m') /\ agree F (snd (run p m)) (snd (run p m')).
Proof.
  induction 1 as [a HQ|e|l k Hk IH|l k Hk IH|r k Hk IH|r c k Hr Hk IH|r c v k Hw Hk IH]; cbn [run]; intros m m' F HF Hs Hs' Ha; auto.
  - rewrite !mlen_shape, Hs, Hs'. destruct (nth_error sh r) eqn:E; [|auto]. apply IH; auto.
  - rewrite (Ha r c) by auto. destruct (mget m' r c); [|auto]. apply IH; auto.
  - destruct (mget m r c) eqn:E1.
    + destruct (mget m' r c) eqn:E2; [|apply (mget_isSome m' m) in E2; congruence].
      apply IH; auto; try (rewrite mset_shape; assumption).
      intros r' c' HF'. rewrite !mget_mset. destruct (Nat.eqb_spec r r') as [<-|]; cbn; [|auto].
      destruct (Nat.eqb_spec c c') as [<-|]; [|auto]. rewrite E1, E2. reflexivity.
    + rewrite (mget_isSome m m') by congruence. auto.
Qed.
Lemma run_unchanged {A} sh Rd Wr Q (p : prog A) : acc sh Rd Wr Q p -> forall m r c, shape m = sh -> ~ Wr r c ->
  mget (snd (run p m)) r c = mget m r c.
Proof.
  induction 1 as [a HQ|e|l k Hk IH|l k Hk IH|r k Hk IH|r c k Hr Hk IH|r c v k Hw Hk IH]; cbn [run]; intros m r' c' Hs Hn; auto.
  - rewrite mlen_shape, Hs. destruct (nth_error sh r) eqn:E; [|auto]. apply IH; auto.
  - destruct (mget m r c); [|auto]. apply IH; auto.
  - destruct (mget m r c) eqn:E1; [|auto]. rewrite IH by (rewrite ?mset_shape; auto).
    rewrite mget_mset. destruct (Nat.eqb_spec r r') as [<-|]; cbn; [|auto].
    destruct (Nat.eqb_spec c c') as [<-|]; [|auto]. contradiction.
Qed.
Lemma run_post {A} sh Rd Wr Q (p : prog A) : acc sh Rd Wr Q p -> forall m a m', shape m = sh -> run p m = (Ok a, m') -> Q a.
Proof.
  induction 1 as [a HQ|e|l k Hk IH|l k Hk IH|r k Hk IH|r c k Hr Hk IH|r c v k Hw Hk IH]; cbn [run]; intros m b m' Hs E; eauto.
  - congruence.
  - discriminate.
  - rewrite mlen_shape, Hs in E. destruct (nth_error sh r) eqn:E1; [|discriminate]. eapply IH; eauto.
  - destruct (mget m r c) eqn:E1; [|discriminate]. eapply IH; eauto.
  - destruct (mget m r c) eqn:E1; [|discriminate]. eapply IH; [|exact E]. rewrite mset_shape; auto.
Qed.
Lemma next_acc {A} sh Rd Wr Q (p : prog A) m p' m' : acc sh Rd Wr Q p -> shape m = sh -> next p m = Some (p', m') ->
  acc sh Rd Wr Q p' /\ forall r c, ~ Wr r c -> mget m' r c = mget m r c.
Proof.
  intros H Hs E. destruct H; cbn in E; try discriminate; injection E as E.
  - subst. auto.
  - subst. auto.
  - subst p' m'. rewrite mlen_shape, Hs. destruct (nth_error sh r) eqn:E1; split; auto. constructor.
  - subst p' m'. destruct (mget m r c); split; auto. constructor.
  - destruct (mget m r c) eqn:E1; injection E as <- <-; (split; [try assumption; constructor|intros r' c' Hn; auto]).
    rewrite mget_mset. destruct (Nat.eqb_spec r r') as [<-|]; cbn; [|auto].
    destruct (Nat.eqb_spec c c') as [<-|]; [|auto]. contradiction.
Qed.

(** ** Interleavings of programs with separate footprints *)
Section Inter.
Context {A : Type}.
Variable pref : bool.
Variable sh : list nat.
Variables Rd Wr : nat -> nat -> nat -> Prop.  (* indexed by the worker *)
Hypothesis sep : forall i j r c, i <> j -> Wr i r c -> ~ Rd j r c /\ ~ Wr j r c.
Variable ps : list (prog A).
Variable m0 : mem.
Hypothesis Hm0 : shape m0 = sh.
Let F i r c := Rd i r c \/ Wr i r c.

Definition iinv (ws : config A) (m : mem) : Prop :=
  length ws = length ps /\ shape m = sh /\
  (forall i w, nth_error ws i = Some w -> acc sh (Rd i) (Wr i) (fun _ => True) (w_prog w)) /\
  (forall i w p, nth_error ws i = Some w -> nth_error ps i = Some p ->
     fst (run (w_prog w) m) = fst (run p m0) /\ agree (F i) (snd (run (w_prog w) m)) (snd (run p m0))) /\
  (forall r c, (forall i, i < length ps -> ~ Wr i r c) -> mget m r c = mget m0 r c).

Lemma nth_error_upd_same {B} (l : list B) i x y : nth_error l i = Some y -> nth_error (upd l i x) i = Some x.
Proof. intros H. rewrite nth_error_upd, Nat.eqb_refl, H. reflexivity. Qed.

Lemma iinv_step ws m ws' m' : iinv ws m -> step pref ws m ws' m' -> iinv ws' m'.
Proof.
  intros (Hl & Hs & Ha & Hr & Hu) H. inversion H as [? ? i w p' ? Hw Hlk Hn]; subst.
  pose proof (next_shape _ _ _ _ Hn) as Hs'. pose proof (next_acc _ _ _ _ _ _ _ _ (Ha i w Hw) Hs Hn) as [Ap Hun].
  assert (i < length ps) as Hi by (rewrite <- Hl; apply nth_error_Some; congruence).
  split; [rewrite upd_length; exact Hl|]. split; [congruence|]. split; [|split].
  - intros j w2 Hj. rewrite nth_error_upd in Hj. destruct (Nat.eqb_spec i j) as [<-|Hne].
    + rewrite Hw in Hj. injection Hj as <-. exact Ap.
    + eapply Ha; exact Hj.
  - intros j w2 p Hj Hp. rewrite nth_error_upd in Hj. destruct (Nat.eqb_spec i j) as [<-|Hne].
    + rewrite Hw in Hj. injection Hj as <-. cbn [w_prog]. rewrite <- (run_next _ _ _ _ Hn). eapply Hr; eassumption.
    + destruct (Hr j w2 p Hj Hp) as [R1 R2].
      destruct (run_frame _ _ _ _ _ (Ha j w2 Hj) m' m (F j)) as [G1 G2].
      * intros r c HR. left; exact HR.
      * congruence.
      * exact Hs.
      * intros r c HF. apply Hun. intros HW. destruct (sep i j r c Hne HW) as [N1 N2]. destruct HF; contradiction.
      * split; [congruence|]. intros r c HF. rewrite G2 by exact HF. apply R2; exact HF.
  - intros r c Hno. rewrite Hun by (apply Hno; exact Hi). apply Hu. exact Hno.
Qed.
Lemma iinv_steps ws m ws' m' : steps pref ws m ws' m' -> iinv ws m -> iinv ws' m'.
Proof. induction 1 as [|ws m ws1 m1 ws2 m2 S1 _ IH]; intros H; [exact H|]. apply IH. eapply iinv_step; eassumption. Qed.

Lemma result_run (p : prog A) r m : result p = Some r -> run p m = (r, m).
Proof. destruct p; cbn; intros H; try discriminate; injection H as <-; reflexivity. Qed.

(** Final states: results and memory are those of every program run alone. *)
Lemma iinv_final ws m : iinv ws m -> 
  (forall i w p r, nth_error ws i = Some w -> nth_error ps i = Some p -> result (w_prog w) = Some r ->
     r = fst (run p m0) /\ forall r c, F i r c -> mget m r c = mget (snd (run p m0)) r c) /\
  (forall r c, (forall i, i < length ps -> ~ Wr i r c) -> mget m r c = mget m0 r c).
Proof.
  intros (Hl & Hs & Ha & Hr & Hu). split; [|exact Hu].
  intros i w p r Hw Hp Hres. destruct (Hr i w p Hw Hp) as [R1 R2]. rewrite (result_run _ _ _ Hres) in R1, R2. cbn in *.
  split; [exact R1|]. intros r' c HF. apply R2; exact HF.
Qed.
Lemma iinv_init : (forall i p, nth_error ps i = Some p -> acc sh (Rd i) (Wr i) (fun _ => True) p) ->
  iinv (map (fun p => {| w_prog := p; w_held := [] |}) ps) m0.
Proof.
  intros Ha. split; [apply map_length|]. split; [exact Hm0|]. split; [|split].
  - intros i w Hw. rewrite nth_error_map in Hw. destruct (nth_error ps i) as [p|] eqn:E; [|discriminate]. injection Hw as <-. cbn. apply Ha; exact E.
  - intros i w p Hw Hp. rewrite nth_error_map, Hp in Hw. injection Hw as <-. cbn. split; [reflexivity|intros r c _; reflexivity].
  - intros; reflexivity.
Qed.
End Inter.
