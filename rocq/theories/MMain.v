(** * Model of src/main.rs: the benchmark drivers.
    Printing and timing are left out; a driver returns the noise values it prints (before [log2] and,
    for several queries, before averaging).  All randomness is an argument.  The drivers run on the main
    thread, which is not a worker of a rayon pool (src/main.rs starts none): hence [pool = false]. *)
From Verif Require Import MBase MUtils MCodec MPoly MRlwe MHash MTree MEncTree MParams MSched MOram.
Local Open Scope nat_scope.

(** [assert_eq!(x, y)] on plaintexts. *)
Definition poly_eqb (x y : poly) : bool := if list_eq_dec Z.eq_dec x y then true else false.
Definition assert_eq_pt (x y : poly) : res unit := rassert (poly_eqb x y).

(** The random choices of a run: the shuffle of [NaiveHash::new], the key, the items ([gen_pt]), the
    randomness of the setup; for iteration [j] and query [i] the dummy data and encryption randomness. *)
Record coins := {
  co_shuffle : list nat -> list nat; co_sk : poly; co_items : nat -> poly; co_setup : tape;
  co_dummy : nat -> nat -> nat -> poly; co_tape : nat -> nat -> tape }.

(** The iterations [0..iterations]; the first one is written out before the loop in src/main.rs (21-39
    and 42-50; 72-92 and 95-111; 135-157 and 159-174), with the same effect. *)
Fixpoint iterate {A} (f : nat -> server -> res (A * server)) (js : list nat) (sv : server) : res (list A) :=
  match js with
  | [] => Ok []
  | j :: js' => ' (a, sv1) <- f j sv ;; out <- iterate f js' sv1 ;; Ok (a :: out)
  end.

(** One iteration of [single_query], src/main.rs:22-36 and 43-48. *)
Definition single_iter (fft : fftT) (cl : client) (nh : nhash) (pts : list poly) (co : coins) (j : nat) (sv : server) : res (Z * server) :=
  let idx := 0 in
  qy <- gen_read_query_one cl idx nh (co_dummy co j 0) (co_tape co j 0) ;;
  ' (y, sv1) <- server_process_one false fft sv qy ;;
  pt <- decrypt_decode_rlwe (cl_cx cl) (cl_sk cl) y ;;
  expected <- index pts idx ;;
  assert_eq_pt expected pt ;;;
  noise <- compute_noise_encoded (cl_cx cl) (cl_sk cl) y pt ;;
  Ok (noise, sv1).
(** [single_query], src/main.rs:12-54; [setup_random_oram] makes the context from the parameters
    (src/oram.rs:613). *)
Definition single_query (fft : fftT) (md : mode) (item_count iterations : nat) (p : tfhe_params) (dryrun : bool) (co : coins) : res (list Z) :=
  rassert (0 <? iterations) ;;;
  _ <- ulog2 md (Z.of_nat item_count) ;;
  if dryrun then Ok [] else
  nh <- nh_new (co_shuffle co) 1 item_count ;;
  cx <- context_new md p ;;
  ' (cl, sv, pts) <- setup_random_oram 1 item_count nh cx (co_sk co) (co_items co) (co_setup co) ;;
  iterate (single_iter fft cl nh pts co) (seq 0 iterations) sv.

(** One iteration of [multi_query], src/main.rs:72-88 and 96-107. *)
Definition multi_iter (fft : fftT) (cl : client) (nh : nhash) (pts : list poly) (query_count : nat) (co : coins) (j : nat) (sv : server) : res (list Z * server) :=
  queries <- mapM (fun i => gen_read_query_one cl (i + 1) nh (co_dummy co j i) (co_tape co j i)) (seq 0 query_count) ;;
  ' (ys, sv1) <- server_process_multi false fft sv queries ;;
  noises <- mapM (fun i =>
    y <- index ys i ;;
    pt <- decrypt_decode_rlwe (cl_cx cl) (cl_sk cl) y ;;
    noise <- compute_noise_encoded (cl_cx cl) (cl_sk cl) y pt ;;
    expected <- index pts (i + 1) ;;
    assert_eq_pt expected pt ;;;
    Ok noise) (seq 0 query_count) ;;
  Ok (noises, sv1).
(** [multi_query], src/main.rs:56-115. *)
Definition multi_query (fft : fftT) (md : mode) (item_count query_count iterations : nat) (p : tfhe_params) (dryrun : bool) (co : coins) : res (list (list Z)) :=
  rassert (0 <? iterations) ;;;
  _ <- ulog2 md (Z.of_nat item_count) ;;
  if dryrun then Ok [] else
  nh <- nh_new (co_shuffle co) 1 item_count ;;
  cx <- context_new md p ;;
  ' (cl, sv, pts) <- setup_random_oram 1 item_count nh cx (co_sk co) (co_items co) (co_setup co) ;;
  rassert (item_count =? length pts) ;;;
  iterate (multi_iter fft cl nh pts query_count co) (seq 0 iterations) sv.

(** The check of [batch_query], src/main.rs:147-155 and 162-170 (also src/oram.rs:850-860); the loop runs
    over a [HashMap], whose order is irrelevant here.  The entry of row [r] is the pair of a column and an
    item, not a position in [indices]. *)
Definition batch_check (cl : client) (nh : nhash) (pts : list poly) (indices : list nat) (cols : nat) (ys : list rlwe) : res (list Z) :=
  mapping <- hash_to_mapping nh indices cols ;;
  mapM (fun e : nat * (nat * nat) =>
    let '(r, (_, i)) := e in
    y <- index ys r ;;
    pt <- decrypt_decode_rlwe (cl_cx cl) (cl_sk cl) y ;;
    ix <- index indices i ;;
    expected <- index pts ix ;;
    assert_eq_pt expected pt ;;;
    compute_noise_encoded (cl_cx cl) (cl_sk cl) y pt) mapping.
(** One iteration of [batch_query], src/main.rs:136-155 and 160-170, for any list of indices. *)
Definition batch_iter (fft : fftT) (cl : client) (nh : nhash) (pts : list poly) (indices : list nat) (cols : nat) (co : coins) (j : nat) (sv : server) : res (list Z * server) :=
  queries <- gen_read_query_batch cl indices nh (co_dummy co j 0) (co_tape co j 0) ;;
  ' (ys, sv1) <- server_process_batch false fft sv queries nh ;;
  noises <- batch_check cl nh pts indices cols ys ;;
  Ok (noises, sv1).
Definition batch_query_with (indices : list nat) (fft : fftT) (md : mode) (rows cols iterations : nat) (p : tfhe_params) (dryrun : bool) (co : coins) : res (list (list Z)) :=
  rassert (0 <? iterations) ;;;
  let h_count := 3 in
  let item_count := rows * cols / h_count in
  _ <- ulog2 md (Z.of_nat item_count) ;;
  if dryrun then Ok [] else
  nh <- nh_new (co_shuffle co) h_count item_count ;;
  cx <- context_new md p ;;
  ' (cl, sv, pts) <- setup_random_oram rows cols nh cx (co_sk co) (co_items co) (co_setup co) ;;
  iterate (batch_iter fft cl nh pts indices cols co) (seq 0 iterations) sv.
(** [batch_query], src/main.rs:117-178: the indices are 0 and 1. *)
Definition batch_query := batch_query_with [0; 1].

(** One round of the loop of [main], src/main.rs:246-261: the driver chosen by the parameters.  The
    [log2] of the plaintext modulus is printed first (line 243). *)
Definition run_params (fft : fftT) (md : mode) (dryrun : bool) (sp : server_params) (co : coins) : res (list (list Z)) :=
  _ <- ulog2 md (tp_plaintext_modulus (sp_tfhe sp)) ;;
  match sp_oram sp with
  | SingleQuery item_count iterations =>
      out <- single_query fft md (Z.to_nat item_count) (Z.to_nat iterations) (sp_tfhe sp) dryrun co ;; Ok (map (fun x => [x]) out)
  | MultiQuery item_count query_count iterations =>
      multi_query fft md (Z.to_nat item_count) (Z.to_nat query_count) (Z.to_nat iterations) (sp_tfhe sp) dryrun co
  | Batched rows cols iterations =>
      batch_query fft md (Z.to_nat rows) (Z.to_nat cols) (Z.to_nat iterations) (sp_tfhe sp) dryrun co
  end.
(** [main], src/main.rs:180-263: all selected parameters, one after the other; a panic ends the program.
    [fft n] is the transform for polynomials of [n] coefficients ([Fft::new], src/context.rs:38 and
    src/rlwe.rs:1078 among others). *)
Definition main_run (fft : Z -> fftT) (md : mode) (f : params_file) (c : cli) (co : nat -> coins) : res (list (list (list Z))) :=
  mapM (fun isp => run_params (fft (tp_polynomial_size (sp_tfhe (snd isp)))) md (cli_dryrun c) (snd isp) (co (fst isp)))
       (combine (seq 0 (length (select_params f c))) (select_params f c)).
