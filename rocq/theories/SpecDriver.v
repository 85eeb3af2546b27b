(** * The program with every server operation under some schedule.
    The same steps as [MMain], but where a driver calls the server, any execution of that call
    ([sexec], through [server_exec]) may have happened. *)
From Verif Require Import MBase MUtils MCodec MPoly MRlwe MHash MTree MEncTree MParams MSched MOram MMain SpecConc.
Local Open Scope nat_scope.

(** One round with the server: ask, process under some schedule, check. *)
Inductive round_exec {Q Y A} (pref : bool) (sv : server) (gen : res Q) (prog : Q -> sprog Y) (check : Y -> res A) : res (A * server) -> Prop :=
| RE_ask e : gen = Panic e -> round_exec pref sv gen prog check (Panic e)
| RE_panic qy e sv1 : gen = Ok qy -> server_exec pref sv (prog qy) (Panic e) sv1 -> round_exec pref sv gen prog check (Panic e)
| RE_check qy y sv1 e : gen = Ok qy -> server_exec pref sv (prog qy) (Ok y) sv1 -> check y = Panic e -> round_exec pref sv gen prog check (Panic e)
| RE_ok qy y sv1 a : gen = Ok qy -> server_exec pref sv (prog qy) (Ok y) sv1 -> check y = Ok a -> round_exec pref sv gen prog check (Ok (a, sv1)).

(** Rounds one after the other. *)
Inductive rounds_exec {A} (f : nat -> server -> res (A * server) -> Prop) : list nat -> server -> res (list A) -> Prop :=
| RS_nil sv : rounds_exec f [] sv (Ok [])
| RS_panic j js sv e : f j sv (Panic e) -> rounds_exec f (j :: js) sv (Panic e)
| RS_fail j js sv a sv1 e : f j sv (Ok (a, sv1)) -> rounds_exec f js sv1 (Panic e) -> rounds_exec f (j :: js) sv (Panic e)
| RS_cons j js sv a sv1 out : f j sv (Ok (a, sv1)) -> rounds_exec f js sv1 (Ok out) -> rounds_exec f (j :: js) sv (Ok (a :: out)).

(** [x] happens first; if it panics that is the outcome [r], otherwise [k] says what follows. *)
Definition first_do {A B} (x : res A) (k : A -> res B -> Prop) (r : res B) : Prop :=
  match x with Ok a => k a r | Panic e => r = Panic e end.

Section Drivers.
Context (pref : bool) (fft : fftT) (md : mode).

Definition single_query_exec (item_count iterations : nat) (p : tfhe_params) (dryrun : bool) (co : coins) : res (list Z) -> Prop :=
  first_do (rassert (0 <? iterations)) (fun _ =>
  first_do (ulog2 md (Z.of_nat item_count)) (fun _ =>
  if dryrun then eq (Ok []) else
  first_do (nh_new (co_shuffle co) 1 item_count) (fun nh =>
  first_do (context_new md p) (fun cx =>
  first_do (setup_random_oram 1 item_count nh cx (co_sk co) (co_items co) (co_setup co)) (fun '(cl, sv, pts) =>
  rounds_exec (fun j sv => round_exec pref sv
      (gen_read_query_one cl 0 nh (co_dummy co j 0) (co_tape co j 0))
      (fun qy => process_one false fft (srv_cx sv) (srv_neg sv) qy)
      (fun y => pt <- decrypt_decode_rlwe (cl_cx cl) (cl_sk cl) y ;;
                expected <- index pts 0 ;;
                assert_eq_pt expected pt ;;;
                compute_noise_encoded (cl_cx cl) (cl_sk cl) y pt)) (seq 0 iterations) sv))))).

Definition multi_query_exec (item_count query_count iterations : nat) (p : tfhe_params) (dryrun : bool) (co : coins) : res (list (list Z)) -> Prop :=
  first_do (rassert (0 <? iterations)) (fun _ =>
  first_do (ulog2 md (Z.of_nat item_count)) (fun _ =>
  if dryrun then eq (Ok []) else
  first_do (nh_new (co_shuffle co) 1 item_count) (fun nh =>
  first_do (context_new md p) (fun cx =>
  first_do (setup_random_oram 1 item_count nh cx (co_sk co) (co_items co) (co_setup co)) (fun '(cl, sv, pts) =>
  first_do (rassert (item_count =? length pts)) (fun _ =>
  rounds_exec (fun j sv => round_exec pref sv
      (mapM (fun i => gen_read_query_one cl (i + 1) nh (co_dummy co j i) (co_tape co j i)) (seq 0 query_count))
      (fun qs => process_multi false fft (srv_cx sv) (srv_neg sv) qs)
      (fun ys => mapM (fun i =>
        y <- index ys i ;;
        pt <- decrypt_decode_rlwe (cl_cx cl) (cl_sk cl) y ;;
        noise <- compute_noise_encoded (cl_cx cl) (cl_sk cl) y pt ;;
        expected <- index pts (i + 1) ;;
        assert_eq_pt expected pt ;;;
        Ok noise) (seq 0 query_count))) (seq 0 iterations) sv)))))).

Definition batch_query_exec (rows cols iterations : nat) (p : tfhe_params) (dryrun : bool) (co : coins) : res (list (list Z)) -> Prop :=
  first_do (rassert (0 <? iterations)) (fun _ =>
  first_do (ulog2 md (Z.of_nat (rows * cols / 3))) (fun _ =>
  if dryrun then eq (Ok []) else
  first_do (nh_new (co_shuffle co) 3 (rows * cols / 3)) (fun nh =>
  first_do (context_new md p) (fun cx =>
  first_do (setup_random_oram rows cols nh cx (co_sk co) (co_items co) (co_setup co)) (fun '(cl, sv, pts) =>
  rounds_exec (fun j sv => round_exec pref sv
      (gen_read_query_batch cl [0; 1] nh (co_dummy co j 0) (co_tape co j 0))
      (fun qs => process_batch false fft (srv_cx sv) (srv_neg sv) (srv_rows sv) qs nh)
      (fun ys => batch_check cl nh pts [0; 1] cols ys)) (seq 0 iterations) sv))))).

Definition run_params_exec (dryrun : bool) (sp : server_params) (co : coins) : res (list (list Z)) -> Prop :=
  first_do (ulog2 md (tp_plaintext_modulus (sp_tfhe sp))) (fun _ r =>
  match sp_oram sp with
  | SingleQuery item_count iterations =>
      exists r1, single_query_exec (Z.to_nat item_count) (Z.to_nat iterations) (sp_tfhe sp) dryrun co r1 /\ r = (out <- r1 ;; Ok (map (fun x => [x]) out))
  | MultiQuery item_count query_count iterations =>
      multi_query_exec (Z.to_nat item_count) (Z.to_nat query_count) (Z.to_nat iterations) (sp_tfhe sp) dryrun co r
  | Batched rows cols iterations =>
      batch_query_exec (Z.to_nat rows) (Z.to_nat cols) (Z.to_nat iterations) (sp_tfhe sp) dryrun co r
  end).
End Drivers.

(** [main]: the selected sets one after the other, number [i] with the coins [co i]. *)
Inductive sets_exec (pref : bool) (fft : Z -> fftT) (md : mode) (dryrun : bool) (co : nat -> coins) : nat -> list server_params -> res (list (list (list Z))) -> Prop :=
| SX_nil i : sets_exec pref fft md dryrun co i [] (Ok [])
| SX_panic i sp sps e : run_params_exec pref (fft (tp_polynomial_size (sp_tfhe sp))) md dryrun sp (co i) (Panic e) ->
    sets_exec pref fft md dryrun co i (sp :: sps) (Panic e)
| SX_fail i sp sps out e : run_params_exec pref (fft (tp_polynomial_size (sp_tfhe sp))) md dryrun sp (co i) (Ok out) ->
    sets_exec pref fft md dryrun co (S i) sps (Panic e) -> sets_exec pref fft md dryrun co i (sp :: sps) (Panic e)
| SX_cons i sp sps out outs : run_params_exec pref (fft (tp_polynomial_size (sp_tfhe sp))) md dryrun sp (co i) (Ok out) ->
    sets_exec pref fft md dryrun co (S i) sps (Ok outs) -> sets_exec pref fft md dryrun co i (sp :: sps) (Ok (out :: outs)).
Definition main_exec (pref : bool) (fft : Z -> fftT) (md : mode) (f : params_file) (c : cli) (co : nat -> coins) : res (list (list (list Z))) -> Prop :=
  sets_exec pref fft md (cli_dryrun c) co 0 (select_params f c).

(** The same result, or both panicked. *)
Definition alike {A} (r d : res A) : Prop := match d with Ok x => r = Ok x | Panic _ => exists e, r = Panic e end.
