(** * Histories that mix single queries and multi-queries *)
From Verif Require Import MBase MPoly MRlwe MHash MSched MOram SpecOram SpecConc.
Local Open Scope Z_scope.

(** One step of a client: one request through [process_one], or several through [process_multi]. *)
Inductive mstep : Set := One (rq : request) | Many (rqs : list request).
Definition requests_of (st : mstep) : list request := match st with One rq => [rq] | Many rqs => rqs end.
(** The requests of the whole history, in order. *)
Definition all_requests (sts : list mstep) : list request := concat (map requests_of sts).
(** Requests to existing items with proper data; those of one multi-query address different items. *)
Definition mstep_ok (cx : ctx) (k : Z) (dom : nat) (st : mstep) : Prop :=
  Forall (request_ok cx k dom) (requests_of st) /\ NoDup (map target (requests_of st)).
(** The parallel loops of a step can run. *)
Definition mstep_spread (pool : bool) (cx : ctx) (st : mstep) : Prop :=
  match st with One _ => spread pool (c_level cx) | Many rqs => spread pool (length rqs) end.

(** The queries for a step; request number [i] of step [j] uses the dummies [dm j i] and the tape [t j i]. *)
Definition ask_step (cl : client) (nh : nhash) (dm : nat -> nat -> poly) (t : nat -> tape) (st : mstep) : res (list query) :=
  ask_all cl nh dm t 0 (requests_of st).
(** What the server runs. *)
Definition step_prog (pool : bool) (fft : fftT) (sv : server) (st : mstep) (qs : list query) : sprog (list rlwe) :=
  match st, qs with
  | One _, [qy] => y <== process_one pool fft (srv_cx sv) (srv_neg sv) qy ;;; SRet [y]
  | One _, _ => SFail PExplicit
  | Many _, _ => process_multi pool fft (srv_cx sv) (srv_neg sv) qs
  end.
(** The whole history, steps one after the other, in the deterministic order. *)
Fixpoint mixed_session (pool : bool) (fft : fftT) (cl : client) (nh : nhash) (dm : nat -> nat -> nat -> poly) (t : nat -> nat -> tape) (j : nat)
    (sv : server) (sts : list mstep) : res (list (list rlwe) * server) :=
  match sts with
  | [] => Ok ([], sv)
  | st :: sts' =>
      qs <- ask_step cl nh (dm j) (t j) st ;;
      ' (ys, sv1) <- with_server sv (step_prog pool fft sv st qs) ;;
      ' (yss, sv2) <- mixed_session pool fft cl nh dm t (Datatypes.S j) sv1 sts' ;;
      Ok (ys :: yss, sv2)
  end.
(** The whole history, every step under some schedule. *)
Inductive mixed_exec (pool pref : bool) (fft : fftT) (cl : client) (nh : nhash) (dm : nat -> nat -> nat -> poly) (t : nat -> nat -> tape) :
    nat -> server -> list mstep -> res (list (list rlwe) * server) -> Prop :=
| ME_nil j sv : mixed_exec pool pref fft cl nh dm t j sv [] (Ok ([], sv))
| ME_ask j sv st sts e : ask_step cl nh (dm j) (t j) st = Panic e -> mixed_exec pool pref fft cl nh dm t j sv (st :: sts) (Panic e)
| ME_panic j sv st sts qs e sv1 : ask_step cl nh (dm j) (t j) st = Ok qs ->
    server_exec pref sv (step_prog pool fft sv st qs) (Panic e) sv1 ->
    mixed_exec pool pref fft cl nh dm t j sv (st :: sts) (Panic e)
| ME_cons j sv st sts qs ys sv1 r : ask_step cl nh (dm j) (t j) st = Ok qs ->
    server_exec pref sv (step_prog pool fft sv st qs) (Ok ys) sv1 ->
    mixed_exec pool pref fft cl nh dm t (Datatypes.S j) sv1 sts r ->
    mixed_exec pool pref fft cl nh dm t j sv (st :: sts) (yr <- r ;; Ok (ys :: fst yr, snd yr)).

(** Noise a step, and a history, adds to every cell. *)
Definition step_growth (cx : ctx) (a : nat) (S E eps : Z) (st : mstep) : Z :=
  match st with One _ => growth cx a S E eps | Many rqs => multi_growth cx a S E eps (length rqs) end.
Definition mixed_growth (cx : ctx) (a : nat) (S E eps : Z) (sts : list mstep) : Z :=
  fold_right Z.add 0 (map (step_growth cx a S E eps) sts).
