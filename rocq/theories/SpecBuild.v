(** * Specification of C99: debug builds (overflow checks on) and release builds (off).
    [build md cx] is the context [cx] in a program built in mode [md]. *)
From Verif Require Import MBase MPoly MRlwe MHash MSched MOram.

Definition build (md : mode) (cx : ctx) : ctx :=
  {| c_mode := md; c_n := c_n cx; c_base := c_base cx; c_level := c_level cx; c_ks_base := c_ks_base cx; c_ks_level := c_ks_level cx;
     c_negs_base := c_negs_base cx; c_negs_level := c_negs_level cx; c_codec := c_codec cx |}.
(** The debug build reports an overflow, or both builds do the same: they return the same value or panic for the same reason. *)
Definition agree {A} (debug release : res A) : Prop := debug = Panic POverflow \/ release = debug.

(** The same client and the same server in a program built in mode [md]; what is left of a result when the mode recorded in the
    contexts is forgotten. *)
Definition client_in (md : mode) (cl : client) : client := {| cl_sk := cl_sk cl; cl_cx := build md (cl_cx cl); cl_rows := cl_rows cl; cl_cols := cl_cols cl |}.
Definition server_in (md : mode) (sv : server) : server := {| srv_data := srv_data sv; srv_neg := srv_neg sv; srv_cx := build md (srv_cx sv) |}.
Definition answer_of {A} (x : res (A * server)) : res (A * server) := bind x (fun r => Ok (fst r, server_in Checked (snd r))).
Definition setup_of (x : res (client * server * list poly)) : res (client * server * list poly) :=
  bind x (fun r => Ok (client_in Checked (fst (fst r)), server_in Checked (snd (fst r)), snd r)).

(** Any history of requests to one server. *)
Inductive request := AskOne (qy : query) | AskMulti (qs : list query) | AskBatch (qs : list query).
Definition ask (pool : bool) (fft : fftT) (nh : nhash) (rq : request) (sv : server) : res (list rlwe * server) :=
  match rq with
  | AskOne qy => bind (server_process_one pool fft sv qy) (fun r => Ok ([fst r], snd r))
  | AskMulti qs => server_process_multi pool fft sv qs
  | AskBatch qs => server_process_batch pool fft sv qs nh
  end.
Fixpoint ask_all (pool : bool) (fft : fftT) (nh : nhash) (rqs : list request) (sv : server) : res (list (list rlwe) * server) :=
  match rqs with
  | [] => Ok ([], sv)
  | rq :: rqs' => bind (ask pool fft nh rq sv) (fun r => bind (ask_all pool fft nh rqs' (snd r)) (fun rest => Ok (fst r :: fst rest, snd rest)))
  end.
