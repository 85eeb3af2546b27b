(** * What "cannot deadlock", "terminates" and "race free" mean *)
From Coq Require Import Permutation.
From Verif Require Import MBase MRlwe MSched.

(** The next memory access of a task is to row [r] / a store to row [r]. *)
Definition uses_row {A} (p : prog A) (r : nat) : Prop :=
  match p with PLen r' _ | PLoad r' _ _ | PStore r' _ _ _ => r' = r | _ => False end.
Definition writes_row {A} (p : prog A) (r : nat) : Prop :=
  match p with PStore r' _ _ _ => r' = r | _ => False end.

(** A parallel loop started in memory [m], whatever the distribution of its tasks over workers and
    whatever the interleaving: as long as some worker has not finished, some worker can move; no worker
    stores to a row while another one is about to access it. *)
Definition never_stuck {B} (pref : bool) (tasks : list (prog B)) (m : mem) : Prop :=
  forall queues ws m1, Permutation (concat queues) (number tasks) -> steps pref (start queues) m ws m1 ->
    finished ws \/ exists ws2 m2, step pref ws m1 ws2 m2.
Definition race_free {B} (pref : bool) (tasks : list (prog B)) (m : mem) : Prop :=
  forall queues ws m1 i j wi wj r, Permutation (concat queues) (number tasks) -> steps pref (start queues) m ws m1 ->
    i <> j -> nth_error ws i = Some wi -> nth_error ws j = Some wj ->
    writes_row (w_prog wi) r -> ~ uses_row (w_prog wj) r.
(** No execution goes on for ever. *)
Definition terminates {B} (pref : bool) (tasks : list (prog B)) (m : mem) : Prop :=
  forall queues (c : nat -> config (list (nat * B)) * mem), Permutation (concat queues) (number tasks) ->
    c 0%nat = (start queues, m) -> ~ (forall k, step pref (fst (c k)) (snd (c k)) (fst (c (S k))) (snd (c (S k)))).

(** The same for every loop a server operation can reach. *)
Fixpoint all_loops {A} (pref : bool) (p : sprog A) (m : mem) : Prop :=
  match p with
  | SRet _ | SFail _ => True
  | SPar tasks k =>
      never_stuck pref tasks m /\ race_free pref tasks m /\ terminates pref tasks m /\
      forall rs m1, par_exec pref tasks m (Ok rs) m1 -> all_loops pref (k rs) m1
  | SReduce n k => forall t, items t = n -> all_loops pref (k t) m
  end.

(** Every execution gives the result and the memory of the sequential one, and panics exactly when it
    does. *)
Definition deterministic {A} (p : sprog A) (m : mem) : Prop :=
  forall pref r m', sexec pref p m r m' ->
    match srun p m with
    | (Ok a, m1) => r = Ok a /\ m' = m1
    | (Panic _, _) => exists e, r = Panic e
    end.
(** Some complete execution exists. *)
Definition realisable {A} (p : sprog A) (m : mem) : Prop :=
  forall pref, exists r m', sexec pref p m r m'.

(** Equal outcomes, up to the kind of panic. *)
Definition same_outcome {A} (x y : res A * mem) : Prop :=
  match x, y with
  | (Ok a, m), (Ok b, m') => a = b /\ m = m'
  | (Panic _, _), (Panic _, _) => True
  | _, _ => False
  end.
