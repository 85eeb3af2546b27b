(** * Panics: poisoned locks, rejected calls *)
From Coq Require Import Permutation.
From Verif Require Import MBase MPoly MRlwe MHash MSched MOram SpecOram SpecBatch SpecConc SpecMixed.
Local Open Scope nat_scope.

(** The guards a worker has when its next action ends: a lock operation adds its lock, an unlock drops one. *)
Definition guards {A} (w : worker A) : list lock :=
  match w_prog w with
  | PLock l _ => l :: w_held w
  | PUnlock _ _ => tl (w_held w)
  | _ => w_held w
  end.
(** The row lock [r] is poisoned ([std::sync::RwLock]: a panic while holding the write guard) in the next
    step of some worker. *)
Definition poisons {A} (ws : config A) (m : mem) (r : nat) : Prop :=
  exists w e m', In w ws /\ next (w_prog w) m = Some (PFail e, m') /\ In (LWrite r) (guards w).
(** Every parallel loop a server operation can reach, whatever the distribution of its tasks and the
    interleaving: no step poisons a row lock, and when all workers have finished (by returning or by
    panicking) no lock is held. *)
Fixpoint never_poisons {A} (pref : bool) (p : sprog A) (m : mem) : Prop :=
  match p with
  | SRet _ | SFail _ => True
  | SPar tasks k =>
      (forall queues ws m1, Permutation (concat queues) (number tasks) -> steps pref (start queues) m ws m1 ->
         (forall r, ~ poisons ws m1 r) /\ (finished ws -> forall w, In w ws -> w_held w = [])) /\
      forall rs m1, par_exec pref tasks m (Ok rs) m1 -> never_poisons pref (k rs) m1
  | SReduce n k => forall t, items t = n -> never_poisons pref (k t) m
  end.

(** A call to the server whose panic is caught by the caller; queries not made for this database. *)
Inductive call : Type :=
| CallOne (qy : query)
| CallMulti (qs : list query)
| CallBatch (qs : list query) (nh : nhash).
(** The query addresses [cols] = 2^a columns with its a >= 1 index bits. *)
Definition made_for (cols : nat) (qy : query) : Prop := exists a, 1 <= a /\ length (q_a qy) = a /\ cols = 2 ^ a.
(** Calls that do not fit a database of [rows] rows of [cols] columns. *)
Definition misfit (rows cols : nat) (c : call) : Prop :=
  match c with
  | CallOne qy => ~ made_for cols qy
  | CallMulti qs => exists qy, In qy qs /\ ~ made_for cols qy
  | CallBatch qs _ => length qs <> rows \/ exists qy, In qy qs /\ ~ made_for cols qy
  end.
Definition call_prog (pool : bool) (fft : fftT) (sv : server) (c : call) : sprog (list rlwe) :=
  match c with
  | CallOne qy => y <== process_one pool fft (srv_cx sv) (srv_neg sv) qy ;;; SRet [y]
  | CallMulti qs => process_multi pool fft (srv_cx sv) (srv_neg sv) qs
  | CallBatch qs nh => process_batch pool fft (srv_cx sv) (srv_neg sv) (srv_rows sv) qs nh
  end.

(** A history in which misfit calls, of any outcome, happen between the proper steps.  A step after a
    misfit call continues with whatever that call left in the server. *)
Inductive attempt : Type := Proper (st : mstep) | Misfit (c : call).
Definition proper (l : list attempt) : list mstep :=
  flat_map (fun x => match x with Proper st => [st] | Misfit _ => [] end) l.
Inductive attempts_exec (pool pref : bool) (fft : fftT) (cl : client) (nh : nhash) (dm : nat -> nat -> nat -> poly) (t : nat -> nat -> tape) :
    nat -> server -> list attempt -> res (list (list rlwe) * server) -> Prop :=
| AE_nil j sv : attempts_exec pool pref fft cl nh dm t j sv [] (Ok ([], sv))
| AE_ask j sv st l e : ask_step cl nh (dm j) (t j) st = Panic e -> attempts_exec pool pref fft cl nh dm t j sv (Proper st :: l) (Panic e)
| AE_panic j sv st l qs e sv1 : ask_step cl nh (dm j) (t j) st = Ok qs ->
    server_exec pref sv (step_prog pool fft sv st qs) (Panic e) sv1 ->
    attempts_exec pool pref fft cl nh dm t j sv (Proper st :: l) (Panic e)
| AE_cons j sv st l qs ys sv1 r : ask_step cl nh (dm j) (t j) st = Ok qs ->
    server_exec pref sv (step_prog pool fft sv st qs) (Ok ys) sv1 ->
    attempts_exec pool pref fft cl nh dm t (S j) sv1 l r ->
    attempts_exec pool pref fft cl nh dm t j sv (Proper st :: l) (yr <- r ;; Ok (ys :: fst yr, snd yr))
| AE_misfit j sv c l r0 sv1 r : server_exec pref sv (call_prog pool fft sv c) r0 sv1 ->
    attempts_exec pool pref fft cl nh dm t j sv1 l r ->
    attempts_exec pool pref fft cl nh dm t j sv (Misfit c :: l) r.

(** The same for histories of batches. *)
Inductive battempt : Type := BProper (br : brequest) | BMisfit (c : call).
Definition bproper (l : list battempt) : list brequest :=
  flat_map (fun x => match x with BProper br => [br] | BMisfit _ => [] end) l.
Inductive battempts_exec (pool pref : bool) (fft : fftT) (cl : client) (nh : nhash) (dm : nat -> nat -> poly) (t : nat -> tape) :
    nat -> server -> list battempt -> res (list (list rlwe) * server) -> Prop :=
| BA_nil j sv : battempts_exec pool pref fft cl nh dm t j sv [] (Ok ([], sv))
| BA_ask j sv br l e : ask_batch cl nh br (dm j) (t j) = Panic e -> battempts_exec pool pref fft cl nh dm t j sv (BProper br :: l) (Panic e)
| BA_panic j sv br l qs e sv1 : ask_batch cl nh br (dm j) (t j) = Ok qs ->
    server_exec pref sv (process_batch pool fft (srv_cx sv) (srv_neg sv) (srv_rows sv) qs nh) (Panic e) sv1 ->
    battempts_exec pool pref fft cl nh dm t j sv (BProper br :: l) (Panic e)
| BA_cons j sv br l qs ys sv1 r : ask_batch cl nh br (dm j) (t j) = Ok qs ->
    server_exec pref sv (process_batch pool fft (srv_cx sv) (srv_neg sv) (srv_rows sv) qs nh) (Ok ys) sv1 ->
    battempts_exec pool pref fft cl nh dm t (S j) sv1 l r ->
    battempts_exec pool pref fft cl nh dm t j sv (BProper br :: l) (yr <- r ;; Ok (ys :: fst yr, snd yr))
| BA_misfit j sv c l r0 sv1 r : server_exec pref sv (call_prog pool fft sv c) r0 sv1 ->
    battempts_exec pool pref fft cl nh dm t j sv1 l r ->
    battempts_exec pool pref fft cl nh dm t j sv (BMisfit c :: l) r.
