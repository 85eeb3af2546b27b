(** * Specification of C99, continued: a history of requests, each processed under some schedule. *)
From Verif Require Import MBase MPoly MRlwe MHash MSched MOram SpecConc SpecBuild.

(** One request: [r] is the outcome, [sv'] the server afterwards. *)
Definition ask_exec (pool pref : bool) (fft : fftT) (nh : nhash) (rq : request) (sv : server) (r : res (list rlwe)) (sv' : server) : Prop :=
  match rq with
  | AskOne qy => exists r1, server_exec pref sv (process_one pool fft (srv_cx sv) (srv_neg sv) qy) r1 sv' /\ r = bind r1 (fun y => Ok [y])
  | AskMulti qs => server_exec pref sv (process_multi pool fft (srv_cx sv) (srv_neg sv) qs) r sv'
  | AskBatch qs => server_exec pref sv (process_batch pool fft (srv_cx sv) (srv_neg sv) (srv_rows sv) qs nh) r sv'
  end.
(** A history; it ends with the first panic. *)
Inductive history_exec (pool pref : bool) (fft : fftT) (nh : nhash) : list request -> server -> res (list (list rlwe) * server) -> Prop :=
| HE_nil sv : history_exec pool pref fft nh [] sv (Ok ([], sv))
| HE_panic rq rqs sv e sv1 : ask_exec pool pref fft nh rq sv (Panic e) sv1 -> history_exec pool pref fft nh (rq :: rqs) sv (Panic e)
| HE_cons rq rqs sv ys sv1 r : ask_exec pool pref fft nh rq sv (Ok ys) sv1 -> history_exec pool pref fft nh rqs sv1 r ->
    history_exec pool pref fft nh (rq :: rqs) sv (bind r (fun rest => Ok (ys :: fst rest, snd rest))).
