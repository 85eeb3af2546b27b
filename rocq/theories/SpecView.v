(** * What the server sees of a whole history of requests.
    A history mixes single queries, multi-queries and batches.  The server sees, step by step: the shapes
    and the random parts of the queries it receives, and the course of the operation (which worker locks,
    reads and writes what, in which order, in all parallel loops), and whether it panicked. *)
From Coq Require Import Permutation.
From Verif Require Import MBase MPoly MRlwe MHash MSched MOram SpecOram SpecBatch SpecConc SpecShape.
Local Open Scope nat_scope.

(** A course together with its outcome: [sexec] with the observations recorded. *)
Fixpoint scourse {A} (pref : bool) (p : sprog A) (m : mem) (c : course) (r : res A) (m2 : mem) : Prop :=
  match p, c with
  | SRet a, CEnd => r = Ok a /\ m2 = m
  | SFail e, CEnd => r = Panic e /\ m2 = m
  | SPar tasks k, CLoop qn obs rest =>
      exists queues ws m1, map (map fst) queues = qn /\ Permutation (concat queues) (number tasks) /\
        observed pref (start queues) m obs ws m1 /\
        ((exists w e, finished ws /\ In w ws /\ w_prog w = PFail e /\ rest = CEnd /\ r = Panic e /\ m2 = m1) \/
         (exists rss rs, map (fun w => w_prog w) ws = map PRet rss /\ Permutation (concat rss) (number rs) /\
            scourse pref (k rs) m1 rest r m2))
  | SReduce n k, CRed t rest => items t = n /\ scourse pref (k t) m rest r m2
  | _, _ => False
  end.

(** One step of a history. *)
Inductive hstep : Set := HOne (rq : request) | HMany (rqs : list request) | HBatch (br : brequest).
(** What is public about a step: the kind of call and, for a multi-query, the number of requests.  Not
    public: reads or writes, the items, their number in a batch, the data. *)
Inductive kind : Set := KOne | KMany (count : nat) | KBatch.
Definition kind_of (st : hstep) : kind :=
  match st with HOne _ => KOne | HMany rqs => KMany (length rqs) | HBatch _ => KBatch end.

(** The client's queries for a step, with dummies [dm] and randomness [t]. *)
Definition ask_hstep (cl : client) (nh : nhash) (dm : nat -> nat -> poly) (t : nat -> tape) (st : hstep) : res (list query) :=
  match st with
  | HOne rq => qy <- ask cl nh rq (dm 0) (t 0) ;; Ok [qy]
  | HMany rqs => ask_all cl nh dm t 0 rqs
  | HBatch br => ask_batch cl nh br (dm 0) (t 0)
  end.
(** What the server runs. *)
Definition hstep_prog (pool : bool) (fft : fftT) (nh : nhash) (sv : server) (k : kind) (qs : list query) : sprog (list rlwe) :=
  match k, qs with
  | KOne, [qy] => y <== process_one pool fft (srv_cx sv) (srv_neg sv) qy ;;; SRet [y]
  | KOne, _ => SFail PExplicit
  | KMany _, _ => process_multi pool fft (srv_cx sv) (srv_neg sv) qs
  | KBatch, _ => process_batch pool fft (srv_cx sv) (srv_neg sv) (srv_rows sv) qs nh
  end.

(** What the server sees of a step. *)
Record seen := {
  sn_kind : kind;
  sn_shapes : list (list (nat * nat * list (nat * nat)) * (nat * nat * list (nat * nat)) * (nat * nat));
  sn_masks : list (list (list poly) * list poly * poly);
  sn_course : course;
  sn_panicked : bool }.
Definition see (st : hstep) (qs : list query) (c : course) (panicked : bool) : seen :=
  {| sn_kind := kind_of st; sn_shapes := map query_shape qs; sn_masks := map query_masks qs; sn_course := c; sn_panicked := panicked |}.

(** What can be seen of a history, every step under some schedule.  A request the client itself refuses does
    not reach the server and ends the history, as does a panic of the server. *)
Inductive history_seen (pool pref : bool) (fft : fftT) (cl : client) (nh : nhash) (dm : nat -> nat -> nat -> poly) (t : nat -> nat -> tape) :
    nat -> server -> list hstep -> list seen -> Prop :=
| HS_nil j sv : history_seen pool pref fft cl nh dm t j sv [] []
| HS_refused j sv st sts e : ask_hstep cl nh (dm j) (t j) st = Panic e -> history_seen pool pref fft cl nh dm t j sv (st :: sts) []
| HS_panic j sv st sts qs c e m : ask_hstep cl nh (dm j) (t j) st = Ok qs ->
    scourse pref (hstep_prog pool fft nh sv (kind_of st) qs) (srv_data sv) c (Panic e) m ->
    history_seen pool pref fft cl nh dm t j sv (st :: sts) [see st qs c true]
| HS_step j sv st sts qs c ys m v : ask_hstep cl nh (dm j) (t j) st = Ok qs ->
    scourse pref (hstep_prog pool fft nh sv (kind_of st) qs) (srv_data sv) c (Ok ys) m ->
    history_seen pool pref fft cl nh dm t (S j) {| srv_data := m; srv_neg := srv_neg sv; srv_cx := srv_cx sv |} sts v ->
    history_seen pool pref fft cl nh dm t j sv (st :: sts) (see st qs c false :: v).

(** The client makes queries for every step. *)
Definition accepted (cl : client) (nh : nhash) (dm : nat -> nat -> nat -> poly) (t : nat -> nat -> tape) (j : nat) (sts : list hstep) : Prop :=
  forall i st, nth_error sts i = Some st -> exists qs, ask_hstep cl nh (dm (j + i)) (t (j + i)) st = Ok qs.
(** Data to be written has as many coefficients as a plaintext (no condition on the values). *)
Definition data_fits (n : nat) (st : hstep) : Prop :=
  let fits rq := match rq with Read _ => True | Write _ d => length d = n end in
  match st with
  | HOne rq => fits rq
  | HMany rqs => Forall fits rqs
  | HBatch (BRead _) => True
  | HBatch (BWrite _ d) => length d = n
  end.
(** Existing items and proper data. *)
Definition hstep_ok (cx : ctx) (k : Z) (dom : nat) (st : hstep) : Prop :=
  match st with
  | HOne rq => request_ok cx k dom rq
  | HMany rqs => Forall (request_ok cx k dom) rqs
  | HBatch br => brequest_ok cx k dom br
  end.
