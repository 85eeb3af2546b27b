(** * Deterministic runs of the programs of MOram *)
From Verif Require Import MBase MPoly MRlwe MSched MOram PfSched.
Local Open Scope nat_scope.

Lemma run_bind_ok {A B} (p : prog A) (f : A -> prog B) m a m' : run p m = (Ok a, m') -> run (pbind p f) m = run (f a) m'.
Proof. intros H. rewrite run_bind, H. reflexivity. Qed.
Lemma run_lift_bind {A B} (x : res A) (f : A -> prog B) m a : x = Ok a -> run (pbind (plift x) f) m = run (f a) m.
Proof. intros ->. reflexivity. Qed.
Lemma run_cell_buf r c m v : mget m r c = Some v -> run (cell_buf r c) m = (Ok v, m).
Proof. intros H. cbn. rewrite H. reflexivity. Qed.
Lemma run_cell_only r c m v : mget m r c = Some v -> run (cell_only r c) m = (Ok v, m).
Proof. intros H. cbn. rewrite H. reflexivity. Qed.
Lemma run_buf_only m : run buf_only m = (Ok tt, m).
Proof. reflexivity. Qed.
Lemma run_row_len r m x : mlen m r = Some x -> run (row_len r) m = (Ok x, m).
Proof. intros H. cbn. rewrite H. reflexivity. Qed.
Lemma run_put r c v m v0 : mget m r c = Some v0 -> run (put r c v) m = (Ok tt, mset m r c v).
Proof. intros H. cbn. rewrite H. reflexivity. Qed.

(** Read-only loops. *)
Lemma run_pmapM_ro {A B} (f : A -> prog B) (R : A -> B -> Prop) l m :
  (forall x, In x l -> exists y, run (f x) m = (Ok y, m) /\ R x y) ->
  exists ys, run (pmapM f l) m = (Ok ys, m) /\ Forall2 R l ys.
Proof.
  induction l as [|x l IH]; intros H; cbn [pmapM]; [eexists; split; [reflexivity|constructor]|].
  destruct (H x (or_introl eq_refl)) as (y & Ey & Ry). rewrite (run_bind_ok _ _ _ _ _ Ey).
  destruct IH as (ys & Eys & Rys); [intros; apply H; right; assumption|]. rewrite (run_bind_ok _ _ _ _ _ Eys).
  eexists; split; [reflexivity|]. constructor; assumption.
Qed.
Lemma run_pfoldM_ro {A S} (f : S -> A -> prog S) (Q : nat -> S -> Prop) l m : forall k s, Q k s ->
  (forall i s x, nth_error l i = Some x -> Q (k + i) s -> exists s', run (f s x) m = (Ok s', m) /\ Q (Datatypes.S (k + i)) s') ->
  exists s', run (pfoldM f l s) m = (Ok s', m) /\ Q (k + length l) s'.
Proof.
  induction l as [|x l IH]; intros k s Hs H; cbn [pfoldM length].
  - exists s. rewrite Nat.add_0_r. auto.
  - destruct (H 0 s x eq_refl) as (s1 & E1 & Q1); [rewrite Nat.add_0_r; exact Hs|]. rewrite Nat.add_0_r in Q1.
    rewrite (run_bind_ok _ _ _ _ _ E1). destruct (IH (Datatypes.S k) s1 Q1) as (s2 & E2 & Q2).
    { intros i s' y Hy Hq. destruct (H (Datatypes.S i) s' y Hy) as (s3 & E3 & Q3); [now rewrite Nat.add_succ_r|].
      exists s3. split; [exact E3|]. rewrite Nat.add_succ_r in Q3. exact Q3. }
    exists s2. split; [exact E2|]. rewrite Nat.add_succ_r. exact Q2.
Qed.
(** [par_run] and [spar] of a mapped list. *)
Lemma par_run_map {A B} (f : A -> prog B) l m : par_run (map f l) m = run (pmapM f l) m.
Proof.
  unfold par_run. revert m. induction l as [|x l IH]; intros m; [reflexivity|]. cbn [map pmapM]. rewrite !run_bind.
  destruct (run (f x) m) as [[y|e] m1]; [|reflexivity]. rewrite !run_bind, IH. reflexivity.
Qed.
Lemma srun_bind {A B} (p : sprog A) (f : A -> sprog B) m :
  srun (sbind p f) m = match srun p m with (Ok a, m') => srun (f a) m' | (Panic e, m') => (Panic e, m') end.
Proof.
  revert m; induction p as [a|e|C tasks k IH|n k IH]; intros m; cbn [sbind srun]; try reflexivity.
  - destruct (par_run tasks m) as [[rs|e] m1]; [apply IH|reflexivity].
  - apply IH.
Qed.
Lemma srun_bind_ok {A B} (p : sprog A) (f : A -> sprog B) m a m' : srun p m = (Ok a, m') -> srun (sbind p f) m = srun (f a) m'.
Proof. intros H. rewrite srun_bind, H. reflexivity. Qed.
Lemma srun_lift {A} (x : res A) m : srun (slift x) m = (x, m).
Proof. destruct x; reflexivity. Qed.
Lemma srun_spar {A B} (f : A -> prog B) l m : srun (spar (map f l)) m = run (pmapM f l) m.
Proof. cbn [spar srun]. rewrite par_run_map. destruct (run (pmapM f l) m) as [[rs|e] m1]; reflexivity. Qed.
Lemma srun_sone {B} (p : prog B) m : srun (sone p) m = run p m.
Proof.
  unfold sone. cbn [srun]. unfold par_run. cbn [pmapM]. rewrite run_bind. destruct (run p m) as [[x|e] m1]; reflexivity.
Qed.
Lemma srun_sreduce n m : srun (sreduce n) m = (Ok (left_tree n), m).
Proof. reflexivity. Qed.
Lemma srun_ret_bind {A B} (x : res A) (f : A -> sprog B) m a : x = Ok a -> srun (sbind (slift x) f) m = srun (f a) m.
Proof. intros ->. reflexivity. Qed.

(** Left-to-right reduction. *)
Lemma reduce_left {A} (op : A -> A -> A) (id : A) : forall l1 l2, reduce op id (left_tree (length l1)) (l1 ++ l2) = (fold_left op l1 id, l2).
Proof.
  induction l1 as [|x l1 IH] using rev_ind; intros l2; [reflexivity|].
  rewrite app_length. cbn [length]. rewrite Nat.add_1_r. cbn [left_tree reduce]. rewrite <- app_assoc, IH. cbn [app].
  rewrite fold_left_app. reflexivity.
Qed.
Lemma reduce_left_all {A} (op : A -> A -> A) (id : A) l n : n = length l -> fst (reduce op id (left_tree n) l) = fold_left op l id.
Proof. intros ->. rewrite <- (app_nil_r l) at 2. rewrite reduce_left. reflexivity. Qed.

(** Loops whose tasks have disjoint footprints. *)
Lemma run_pmapM_foot {A B} (foot : A -> nat -> nat -> Prop) (Q : A -> B -> mem -> Prop) (f : A -> prog B) : forall l m0,
  (forall i j x y r c, nth_error l i = Some x -> nth_error l j = Some y -> foot x r c -> foot y r c -> i = j) ->
  (forall x y m m', Q x y m -> (forall r c, foot x r c -> mget m r c = mget m' r c) -> Q x y m') ->
  (forall x m, In x l -> shape m = shape m0 -> (forall r c, foot x r c -> mget m r c = mget m0 r c) ->
     exists a m1, run (f x) m = (Ok a, m1) /\ (forall r c, ~ foot x r c -> mget m1 r c = mget m r c) /\ Q x a m1) ->
  exists ys m', run (pmapM f l) m0 = (Ok ys, m') /\ shape m' = shape m0 /\ Forall2 (fun x y => Q x y m') l ys /\
    forall r c, (forall x, In x l -> ~ foot x r c) -> mget m' r c = mget m0 r c.
Proof.
  induction l as [|x l IH]; intros m0 Hdis Hst Hrun; cbn [pmapM].
  - exists [], m0. repeat split; auto.
  - destruct (Hrun x m0 (or_introl eq_refl) eq_refl) as (y & m1 & Ey & Uy & Qy); [auto|].
    pose proof (run_shape (f x) m0) as Hs1. rewrite Ey in Hs1. cbn [snd] in Hs1.
    assert (forall x' r c, In x' l -> foot x' r c -> ~ foot x r c) as Hdx.
    { intros x' r c Hin H1 H2. apply In_nth_error in Hin as (j & Hj). specialize (Hdis 0 (S j) x x' r c eq_refl Hj H2 H1). discriminate. }
    destruct (IH m1) as (ys & m' & Eys & Hs & HQ & Hun).
    + intros i j a b r c Hi Hj Fa Fb. specialize (Hdis (S i) (S j) a b r c Hi Hj Fa Fb). congruence.
    + exact Hst.
    + intros x' m Hin Hsm Hag. apply Hrun; [right; exact Hin|congruence|]. intros r c Hf. rewrite (Hag r c Hf). apply Uy. eapply Hdx; eassumption.
    + exists (y :: ys), m'. rewrite (run_bind_ok _ _ _ _ _ Ey), (run_bind_ok _ _ _ _ _ Eys). split; [reflexivity|]. split; [congruence|]. split.
      * constructor; [|exact HQ]. eapply Hst; [exact Qy|]. intros r c Hf. symmetry. apply Hun. intros x' Hin Hf'. exact (Hdx x' r c Hin Hf' Hf).
      * intros r c Hno. rewrite Hun by (intros x' Hin; apply Hno; right; exact Hin). apply Uy. apply Hno. left; reflexivity.
Qed.
