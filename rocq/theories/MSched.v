(** * Threads, locks and parallel loops, as used by src/oram.rs

    [src/oram.rs] keeps every database row behind an [RwLock] and one [Mutex<FftBuffer>] per worker
    thread, and runs closures in parallel with rayon.  This file gives programs over that memory two
    meanings: a deterministic one ([run], [srun]: one task after the other) and a nondeterministic one
    ([par_exec], [sexec]: any assignment of tasks to workers, any interleaving of lock operations, loads
    and stores, any shape of a parallel reduction). *)
From Verif Require Import MBase MPoly MRlwe.
From Coq Require Import Permutation.
Local Open Scope nat_scope.

(** The rows of the database, [Server::data], src/oram.rs:418. *)
Definition mem := list (list rlwe).

(** [RwLock] of row [r] taken for reading / for writing; [LBuf] is the [Mutex] of the FFT buffer of the
    worker that runs the task, [buf.pool[tid]] (src/oram.rs:22-34, 252-257). *)
Inductive lock : Set := LRead (r : nat) | LWrite (r : nat) | LBuf.

(** A task: a sequential program over the shared memory.  A panic drops all guards; the model places
    the checks of a statement after the release of its guards. *)
Inductive prog (A : Type) : Type :=
| PRet (a : A)
| PFail (p : panic)
| PLock (l : lock) (k : prog A)
| PUnlock (l : lock) (k : prog A)
| PLen (r : nat) (k : nat -> prog A)
| PLoad (r c : nat) (k : rlwe -> prog A)
| PStore (r c : nat) (v : rlwe) (k : prog A).
Arguments PRet {A} a.
Arguments PFail {A} p.
Arguments PLock {A} l k.
Arguments PUnlock {A} l k.
Arguments PLen {A} r k.
Arguments PLoad {A} r c k.
Arguments PStore {A} r c v k.

Fixpoint pbind {A B} (p : prog A) (f : A -> prog B) : prog B :=
  match p with
  | PRet a => f a
  | PFail e => PFail e
  | PLock l k => PLock l (pbind k f)
  | PUnlock l k => PUnlock l (pbind k f)
  | PLen r k => PLen r (fun x => pbind (k x) f)
  | PLoad r c k => PLoad r c (fun x => pbind (k x) f)
  | PStore r c v k => PStore r c v (pbind k f)
  end.
Notation "x <-- e ;;; f" := (pbind e (fun x => f)) (at level 61, e at next level, right associativity).

(** A computation that may panic, without memory access. *)
Definition plift {A} (x : res A) : prog A := match x with Ok a => PRet a | Panic e => PFail e end.

(** Loops. *)
Fixpoint pmapM {A B} (f : A -> prog B) (l : list A) : prog (list B) :=
  match l with
  | [] => PRet []
  | x :: l' => y <-- f x ;;; ys <-- pmapM f l' ;;; PRet (y :: ys)
  end.
Fixpoint pfoldM {A S} (f : S -> A -> prog S) (l : list A) (s : S) : prog S :=
  match l with
  | [] => PRet s
  | x :: l' => s' <-- f s x ;;; pfoldM f l' s'
  end.

(** ** One task alone *)

Definition mlen (m : mem) (r : nat) : option nat := option_map (@length rlwe) (nth_error m r).
Definition mget (m : mem) (r c : nat) : option rlwe :=
  match nth_error m r with Some row => nth_error row c | None => None end.
Definition mset (m : mem) (r c : nat) (v : rlwe) : mem :=
  match nth_error m r with Some row => upd m r (upd row c v) | None => m end.

(** The next state of a task that does not have to wait, [None] when it is finished. *)
Definition next {A} (p : prog A) (m : mem) : option (prog A * mem) :=
  match p with
  | PRet _ | PFail _ => None
  | PLock _ k | PUnlock _ k => Some (k, m)
  | PLen r k => Some (match mlen m r with Some x => k x | None => PFail PIndex end, m)
  | PLoad r c k => Some (match mget m r c with Some v => k v | None => PFail PIndex end, m)
  | PStore r c v k => Some (match mget m r c with Some _ => (k, mset m r c v) | None => (PFail PIndex, m) end)
  end.

Fixpoint run {A} (p : prog A) (m : mem) : res A * mem :=
  match p with
  | PRet a => (Ok a, m)
  | PFail e => (Panic e, m)
  | PLock _ k | PUnlock _ k => run k m
  | PLen r k => match mlen m r with Some x => run (k x) m | None => (Panic PIndex, m) end
  | PLoad r c k => match mget m r c with Some v => run (k v) m | None => (Panic PIndex, m) end
  | PStore r c v k => match mget m r c with Some _ => run k (mset m r c v) | None => (Panic PIndex, m) end
  end.

(** What a run does to locks and memory, without the values. *)
Inductive event : Set :=
| ELock (l : lock) | EUnlock (l : lock) | ELen (r : nat) | ELoad (r c : nat) | EStore (r c : nat).
Fixpoint trace {A} (p : prog A) (m : mem) : list event :=
  match p with
  | PRet _ | PFail _ => []
  | PLock l k => ELock l :: trace k m
  | PUnlock l k => EUnlock l :: trace k m
  | PLen r k => ELen r :: match mlen m r with Some x => trace (k x) m | None => [] end
  | PLoad r c k => ELoad r c :: match mget m r c with Some v => trace (k v) m | None => [] end
  | PStore r c v k => EStore r c :: match mget m r c with Some _ => trace k (mset m r c v) | None => [] end
  end.

(** ** Several workers *)

(** A worker: the rest of its program and the locks it holds (innermost first). *)
Record worker (A : Type) := { w_prog : prog A; w_held : list lock }.
Arguments w_prog {A} w.
Arguments w_held {A} w.
Arguments Build_worker {A} w_prog w_held.
Definition config A : Type := list (worker A).

(** May worker [i] take lock [l]?  An [RwLock] is free for reading unless some worker (itself included)
    holds it for writing, and free for writing unless some worker holds it; a worker's buffer is only
    ever used by that worker.  With writer preference ([pref]), a reader also waits while some worker
    waits to write. *)
Definition waits_write {A} (r : nat) (w : worker A) : Prop :=
  exists k, w_prog w = PLock (LWrite r) k.
Definition may_lock {A} (pref : bool) (ws : config A) (i : nat) (l : lock) : Prop :=
  match l with
  | LRead r => (forall w, In w ws -> ~ In (LWrite r) (w_held w)) /\
               (pref = true -> forall w, In w ws -> ~ waits_write r w)
  | LWrite r => forall w, In w ws -> ~ In (LWrite r) (w_held w) /\ ~ In (LRead r) (w_held w)
  | LBuf => forall w, nth_error ws i = Some w -> ~ In LBuf (w_held w)
  end.

(** Locks held after one step from [p] to [p'].  A panic unwinds and drops the guards.  A panic
    with a write guard held would also poison the row: C68 shows that this never happens. *)
Definition held_after {A} (p p' : prog A) (h : list lock) : list lock :=
  match p' with
  | PFail _ => []
  | _ =>
      match p with
      | PLock l _ => l :: h
      | PUnlock _ _ => tl h
      | _ => h
      end
  end.

(** One step of one worker. *)
Inductive step {A} (pref : bool) : config A -> mem -> config A -> mem -> Prop :=
| Step ws m i w p' m' :
    nth_error ws i = Some w ->
    (forall l k, w_prog w = PLock l k -> may_lock pref ws i l) ->
    next (w_prog w) m = Some (p', m') ->
    step pref ws m (upd ws i {| w_prog := p'; w_held := held_after (w_prog w) p' (w_held w) |}) m'.
Inductive steps {A} (pref : bool) : config A -> mem -> config A -> mem -> Prop :=
| Steps_refl ws m : steps pref ws m ws m
| Steps_step ws m ws1 m1 ws2 m2 : step pref ws m ws1 m1 -> steps pref ws1 m1 ws2 m2 -> steps pref ws m ws2 m2.

(** Finished: every worker has returned or panicked. *)
Definition result {A} (p : prog A) : option (res A) :=
  match p with PRet a => Some (Ok a) | PFail e => Some (Panic e) | _ => None end.
Definition finished {A} (ws : config A) : Prop := forall w, In w ws -> result (w_prog w) <> None.

(** ** Parallel loops *)

(** A worker runs the tasks assigned to it one after the other and keeps their numbered results.  No
    task of src/oram.rs contains a nested parallel operation, so a worker never interrupts a task to
    start another one.  A "worker" is one sequential leaf of rayon's splitting tree; leaves that one thread
    happens to run after each other (also after a panic in an earlier one) are among the interleavings. *)
Fixpoint wprog {A} (queue : list (nat * prog A)) : prog (list (nat * A)) :=
  match queue with
  | [] => PRet []
  | (i, p) :: queue' => a <-- p ;;; rest <-- wprog queue' ;;; PRet ((i, a) :: rest)
  end.
Definition start {A} (queues : list (list (nat * prog A))) : config (list (nat * A)) :=
  map (fun qu => {| w_prog := wprog qu; w_held := [] |}) queues.

Definition number {A} (l : list A) : list (nat * A) := combine (seq 0 (length l)) l.

(** Outcome of a parallel [map] + [collect] (or [unzip], or [for_each] with unit results): if every
    worker returns, result number i is the one of task i; if some worker panics, so does the loop. *)
Inductive par_exec {A} (pref : bool) (tasks : list (prog A)) (m : mem) : res (list A) -> mem -> Prop :=
| Par_ok queues ws rss rs m' :
    Permutation (concat queues) (number tasks) ->
    steps pref (start queues) m ws m' ->
    map (fun w => w_prog w) ws = map PRet rss ->
    Permutation (concat rss) (number rs) ->
    par_exec pref tasks m (Ok rs) m'
| Par_panic queues ws m' e w :
    Permutation (concat queues) (number tasks) ->
    steps pref (start queues) m ws m' -> finished ws ->
    In w ws -> w_prog w = PFail e ->
    par_exec pref tasks m (Panic e) m'.

(** The same loop, sequentially. *)
Definition par_run {A} (tasks : list (prog A)) (m : mem) : res (list A) * mem :=
  run (pmapM (fun p => p) tasks) m.

(** Shape of a parallel [reduce]: items combined pairwise, the identity inserted anywhere. *)
Inductive rtree : Set := RId | RItem | RNode (l r : rtree).
Fixpoint items (t : rtree) : nat :=
  match t with RId => 0 | RItem => 1 | RNode l r => items l + items r end.
Fixpoint reduce {A} (op : A -> A -> A) (id : A) (t : rtree) (l : list A) : A * list A :=
  match t with
  | RId => (id, l)
  | RItem => match l with x :: l' => (x, l') | [] => (id, []) end
  | RNode a b =>
      let (x, l1) := reduce op id a l in
      let (y, l2) := reduce op id b l1 in
      (op x y, l2)
  end.
(** Left to right, starting from the identity. *)
Fixpoint left_tree (n : nat) : rtree :=
  match n with O => RId | S n' => RNode (left_tree n') RItem end.

(** ** The server: a sequence of parallel loops and reductions *)
Inductive sprog (A : Type) : Type :=
| SRet (a : A)
| SFail (p : panic)
| SPar {B : Type} (tasks : list (prog B)) (k : list B -> sprog A)
| SReduce (n : nat) (k : rtree -> sprog A).
Arguments SRet {A} a.
Arguments SFail {A} p.
Arguments SPar {A B} tasks k.
Arguments SReduce {A} n k.
Fixpoint sbind {A B} (p : sprog A) (f : A -> sprog B) : sprog B :=
  match p with
  | SRet a => f a
  | SFail e => SFail e
  | SPar tasks k => SPar tasks (fun x => sbind (k x) f)
  | SReduce n k => SReduce n (fun t => sbind (k t) f)
  end.
Notation "x <== e ;;; f" := (sbind e (fun x => f)) (at level 61, e at next level, right associativity).
Definition slift {A} (x : res A) : sprog A := match x with Ok a => SRet a | Panic e => SFail e end.
Definition spar {B} (tasks : list (prog B)) : sprog (list B) := SPar tasks SRet.
(** Code of the calling thread between the parallel loops. *)
Definition sone {B} (p : prog B) : sprog B :=
  SPar [p] (fun rs => match rs with [x] => SRet x | _ => SFail PExplicit end).
Definition sreduce (n : nat) : sprog rtree := SReduce n SRet.

(** Deterministic meaning. *)
Fixpoint srun {A} (p : sprog A) (m : mem) : res A * mem :=
  match p with
  | SRet a => (Ok a, m)
  | SFail e => (Panic e, m)
  | SPar tasks k =>
      match par_run tasks m with
      | (Ok rs, m') => srun (k rs) m'
      | (Panic e, m') => (Panic e, m')
      end
  | SReduce n k => srun (k (left_tree n)) m
  end.
(** Every possible execution. *)
Fixpoint sexec {A} (pref : bool) (p : sprog A) (m : mem) (r : res A) (m2 : mem) : Prop :=
  match p with
  | SRet a => r = Ok a /\ m2 = m
  | SFail e => r = Panic e /\ m2 = m
  | SPar tasks k =>
      (exists rs m1, par_exec pref tasks m (Ok rs) m1 /\ sexec pref (k rs) m1 r m2) \/
      (exists e, par_exec pref tasks m (Panic e) m2 /\ r = Panic e)
  | SReduce n k => exists t, items t = n /\ sexec pref (k t) m r m2
  end.
(** Traces of the tasks, loop by loop, in the deterministic run. *)
Fixpoint par_traces {A} (tasks : list (prog A)) (m : mem) : list (list event) :=
  match tasks with
  | [] => []
  | p :: tasks' => trace p m :: par_traces tasks' (snd (run p m))
  end.
Fixpoint straces {A} (p : sprog A) (m : mem) : list (list (list event)) :=
  match p with
  | SRet _ | SFail _ => []
  | SPar tasks k =>
      par_traces tasks m ::
      match par_run tasks m with (Ok rs, m') => straces (k rs) m' | (Panic _, _) => [] end
  | SReduce n k => straces (k (left_tree n)) m
  end.
