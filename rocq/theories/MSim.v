(** * Model of the flag [parallel] of [simulate], src/decision_tree.rs:643-694. *)
From Verif Require Import MBase MPoly MRlwe MTree MEncTree MSched.
Local Open Scope nat_scope.

(** [simulate] with its flag.  With [parallel] the clients' ciphertexts are evaluated by
    [client_cts.par_iter().map(..).collect()] (line 671), otherwise by a sequential iterator (673).  The tasks
    share only immutable data: every task creates its own FFT buffer (line 666), so they are programs without
    locks and memory accesses.  The checks afterwards are sequential (679-684). *)
Definition simulate_with (parallel : bool) (fft : fftT) (cx : ctx) (s : poly) (model : node) (features : list (list nat)) (t : tape) : sprog (list Z) :=
  nm <== slift (neg_s <- neg_gsw cx s (split t 0) ;; m <- gen_all_subs_ksk cx s (split t 1) ;; Ok (neg_s, m)) ;;;
  client_cts <== slift (mapM (fun jf => encrypt_feature_vector cx s (snd jf) (split t (2 + fst jf)))
                             (combine (seq 0 (length features)) features)) ;;;
  output_cts <== (if parallel then spar (map (fun ct => plift (server_f fft cx model (fst nm) (snd nm) ct)) client_cts)
                  else slift (mapM (server_f fft cx model (fst nm) (snd nm)) client_cts)) ;;;
  slift (mapM (check_prediction cx s model) (combine output_cts features)).
