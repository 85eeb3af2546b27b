(** * Sessions in which every query is processed under some schedule *)
From Verif Require Import MBase MPoly MRlwe MHash MSched MOram SpecOram SpecBatch.

(** One server operation under some schedule. *)
Definition server_exec {A} (pref : bool) (sv : server) (p : sprog A) (r : res A) (sv' : server) : Prop :=
  exists m, sexec pref p (srv_data sv) r m /\ sv' = {| srv_data := m; srv_neg := srv_neg sv; srv_cx := srv_cx sv |}.

Inductive session_exec (pool pref : bool) (fft : fftT) (cl : client) (nh : nhash) (dm : nat -> nat -> poly) (t : nat -> tape) :
    nat -> server -> list request -> res (list rlwe * server) -> Prop :=
| SE_nil j sv : session_exec pool pref fft cl nh dm t j sv [] (Ok ([], sv))
| SE_ask j sv rq rqs e : ask cl nh rq (dm j) (t j) = Panic e -> session_exec pool pref fft cl nh dm t j sv (rq :: rqs) (Panic e)
| SE_panic j sv rq rqs qy e sv1 : ask cl nh rq (dm j) (t j) = Ok qy ->
    server_exec pref sv (process_one pool fft (srv_cx sv) (srv_neg sv) qy) (Panic e) sv1 ->
    session_exec pool pref fft cl nh dm t j sv (rq :: rqs) (Panic e)
| SE_cons j sv rq rqs qy y sv1 r : ask cl nh rq (dm j) (t j) = Ok qy ->
    server_exec pref sv (process_one pool fft (srv_cx sv) (srv_neg sv) qy) (Ok y) sv1 ->
    session_exec pool pref fft cl nh dm t (S j) sv1 rqs r ->
    session_exec pool pref fft cl nh dm t j sv (rq :: rqs) (yr <- r ;; Ok (y :: fst yr, snd yr)).

Inductive batch_session_exec (pool pref : bool) (fft : fftT) (cl : client) (nh : nhash) (dm : nat -> nat -> poly) (t : nat -> tape) :
    nat -> server -> list brequest -> res (list (list rlwe) * server) -> Prop :=
| BE_nil j sv : batch_session_exec pool pref fft cl nh dm t j sv [] (Ok ([], sv))
| BE_ask j sv br brs e : ask_batch cl nh br (dm j) (t j) = Panic e -> batch_session_exec pool pref fft cl nh dm t j sv (br :: brs) (Panic e)
| BE_panic j sv br brs qs e sv1 : ask_batch cl nh br (dm j) (t j) = Ok qs ->
    server_exec pref sv (process_batch pool fft (srv_cx sv) (srv_neg sv) (srv_rows sv) qs nh) (Panic e) sv1 ->
    batch_session_exec pool pref fft cl nh dm t j sv (br :: brs) (Panic e)
| BE_cons j sv br brs qs ys sv1 r : ask_batch cl nh br (dm j) (t j) = Ok qs ->
    server_exec pref sv (process_batch pool fft (srv_cx sv) (srv_neg sv) (srv_rows sv) qs nh) (Ok ys) sv1 ->
    batch_session_exec pool pref fft cl nh dm t (S j) sv1 brs r ->
    batch_session_exec pool pref fft cl nh dm t j sv (br :: brs) (yr <- r ;; Ok (ys :: fst yr, snd yr)).
