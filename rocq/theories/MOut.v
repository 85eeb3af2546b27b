(** * Model of what src/main.rs prints.
    The drivers of [MMain] again, with their [print!] and [println!].  Floating point numbers are printed by
    functions given as arguments ([show_dev] for the standard deviation, [show_noise d] for the noise values of
    one iteration, to be averaged over [d] answers); the three durations are any texts. *)
From Coq Require Import String Ascii.
From Verif Require Import MBase MUtils MCodec MPoly MRlwe MHash MTree MEncTree MParams MSched MOram MMain MJson.
Local Open Scope string_scope.

(** What a computation has printed, and how it ended. *)
Definition printing (A : Type) : Type := (string * res A)%type.
Definition quiet {A} (x : res A) : printing A := ("", x).
Definition print (s : string) : printing unit := (s, Ok tt).
Definition pbind {A B} (x : printing A) (f : A -> printing B) : printing B :=
  match snd x with
  | Ok a => (fst x +++ fst (f a), snd (f a))
  | Panic e => (fst x, Panic e)
  end.
Notation "x <~ a ;; b" := (pbind a (fun x => b)) (at level 61, a at next level, right associativity).
Notation "' x <~ a ;; b" := (pbind a (fun x => b)) (at level 61, x pattern, a at next level, right associativity).
Notation "a ~;; b" := (pbind a (fun _ => b)) (at level 61, right associativity).
Definition NL : string := String "010" EmptyString.

(** Texts of the three durations of a set: setup, server, response. *)
Definition clock := (string * string * string)%type.

(** The iterations: the first one ends the line of the table (src/main.rs:38, 92, 157), the others print a
    line of their own (48, 109, 172). *)
Definition report {A} (show : A -> string) (md_no : string) (cl : clock) (j : nat) (a : A) : printing unit :=
  match j with
  | O => let '(t1, t2, t3) := cl in print (t1 +++ "," +++ t2 +++ "," +++ t3 +++ "," +++ show a +++ NL)
  | _ => print ("### mode=" +++ md_no +++ ", iter=" +++ itoa (Z.of_nat j) +++ ", noise=" +++ show a +++ NL)
  end.
Fixpoint iterate_out {A} (rep : nat -> A -> printing unit) (f : nat -> server -> res (A * server)) (js : list nat) (sv : server) : printing unit :=
  match js with
  | [] => quiet (Ok tt)
  | j :: js' => asv <~ quiet (f j sv) ;; rep j (fst asv) ~;; iterate_out rep f js' (snd asv)
  end.

Section Printing.
Context (show_dev : Z -> string) (show_noise : list Z -> string).

(** [single_query], src/main.rs:12-54. *)
Definition single_query_out (fft : fftT) (md : mode) (item_count iterations : nat) (p : tfhe_params) (dryrun : bool) (co : coins) (cl0 : clock) : printing unit :=
  quiet (rassert (0 <? iterations)%nat) ~;;
  l <~ quiet (ulog2 md (Z.of_nat item_count)) ;;
  print ("0," +++ itoa (Z.of_nat item_count) +++ ",-,-,-,2^" +++ itoa l +++ ",") ~;;
  if dryrun then print ("-,-,-,-" +++ NL) else
  nh <~ quiet (nh_new (co_shuffle co) 1 item_count) ;;
  cx <~ quiet (context_new md p) ;;
  ' (cl, sv, pts) <~ quiet (setup_random_oram 1 item_count nh cx (co_sk co) (co_items co) (co_setup co)) ;;
  iterate_out (report (fun v => show_noise [v]) "0" cl0) (single_iter fft cl nh pts co) (seq 0 iterations) sv.

(** [multi_query], src/main.rs:56-115. *)
Definition multi_query_out (fft : fftT) (md : mode) (item_count query_count iterations : nat) (p : tfhe_params) (dryrun : bool) (co : coins) (cl0 : clock) : printing unit :=
  quiet (rassert (0 <? iterations)%nat) ~;;
  l <~ quiet (ulog2 md (Z.of_nat item_count)) ;;
  print ("1," +++ itoa (Z.of_nat item_count) +++ "," +++ itoa (Z.of_nat query_count) +++ ",-,-,2^" +++ itoa l +++ ",") ~;;
  if dryrun then print ("-,-,-,-" +++ NL) else
  nh <~ quiet (nh_new (co_shuffle co) 1 item_count) ;;
  cx <~ quiet (context_new md p) ;;
  ' (cl, sv, pts) <~ quiet (setup_random_oram 1 item_count nh cx (co_sk co) (co_items co) (co_setup co)) ;;
  quiet (rassert (item_count =? List.length pts)%nat) ~;;
  iterate_out (report show_noise "1" cl0) (multi_iter fft cl nh pts query_count co) (seq 0 iterations) sv.

(** [batch_query], src/main.rs:117-178. *)
Definition batch_query_out (fft : fftT) (md : mode) (rows cols iterations : nat) (p : tfhe_params) (dryrun : bool) (co : coins) (cl0 : clock) : printing unit :=
  quiet (rassert (0 <? iterations)%nat) ~;;
  let h_count := 3%nat in
  let item_count := (rows * cols / h_count)%nat in
  l <~ quiet (ulog2 md (Z.of_nat item_count)) ;;
  print ("2," +++ itoa (Z.of_nat item_count) +++ ",-," +++ itoa (Z.of_nat rows) +++ "," +++ itoa (Z.of_nat cols) +++ ",2^" +++ itoa l +++ ",") ~;;
  if dryrun then print ("-,-,-,-" +++ NL) else
  nh <~ quiet (nh_new (co_shuffle co) h_count item_count) ;;
  cx <~ quiet (context_new md p) ;;
  ' (cl, sv, pts) <~ quiet (setup_random_oram rows cols nh cx (co_sk co) (co_items co) (co_setup co)) ;;
  iterate_out (report show_noise "2" cl0) (batch_iter fft cl nh pts [0; 1]%nat cols co) (seq 0 iterations) sv.

Definition show_bool (b : bool) : string := if b then "true" else "false".

(** One round of the loop of [main], src/main.rs:231-261; [show_noise] prints the figure of an iteration. *)
Definition run_params_with (fft : fftT) (md : mode) (dryrun : bool) (sp : server_params) (co : coins) (cl0 : clock) : printing unit :=
  let t := sp_tfhe sp in
  l <~ quiet (ulog2 md (tp_plaintext_modulus t)) ;;
  print (show_dev (tp_standard_deviation t) +++ "," +++ itoa (tp_polynomial_size t) +++ "," +++ itoa (tp_base_log t) +++ "," +++
         itoa (tp_level_count t) +++ "," +++ itoa (tp_ks_base_log t) +++ "," +++ itoa (tp_ks_level_count t) +++ "," +++
         itoa (tp_negs_base_log t) +++ "," +++ itoa (tp_negs_level_count t) +++ ",2^" +++ itoa l +++ "," +++
         show_bool (tp_secure_seed t) +++ ",") ~;;
  match sp_oram sp with
  | SingleQuery item_count iterations => single_query_out fft md (Z.to_nat item_count) (Z.to_nat iterations) t dryrun co cl0
  | MultiQuery item_count query_count iterations =>
      multi_query_out fft md (Z.to_nat item_count) (Z.to_nat query_count) (Z.to_nat iterations) t dryrun co cl0
  | Batched rows cols iterations => batch_query_out fft md (Z.to_nat rows) (Z.to_nat cols) (Z.to_nat iterations) t dryrun co cl0
  end.

End Printing.

Section PrintingAll.
Context (show_dev : Z -> string) (show_noise : nat -> list Z -> string).
(** What the sum of the noises of an iteration is divided by: nothing in src/main.rs:36-38 and 47-48, [query_count] in 89 and 108,
    [indices.len()] in 156 and 171, where [indices] is [0, 1] (130). *)
Definition divisor (sp : server_params) : nat :=
  match sp_oram sp with SingleQuery _ _ => 1 | MultiQuery _ query_count _ => Z.to_nat query_count | Batched _ _ _ => 2 end%nat.
Definition run_params_out (fft : fftT) (md : mode) (dryrun : bool) (sp : server_params) (co : coins) (cl0 : clock) : printing unit :=
  run_params_with show_dev (show_noise (divisor sp)) fft md dryrun sp co cl0.

(** The header, src/main.rs:228-230. *)
Definition header : string := "standard_deviation,polynomial_size,base_log,level_count,key_switch_base_log,key_switch_level_count,negs_base_log,negs_level_count,plaintext_modulus,secure_seed,mode,item_count,query_count,rows,cols,n,setup_duration,server_duration,response_duration,final_noise".

(** [main], src/main.rs:180-263. *)
Fixpoint sets_out (fft : Z -> fftT) (md : mode) (dryrun : bool) (co : nat -> coins) (cl0 : nat -> clock) (i : nat) (sps : list server_params) : printing unit :=
  match sps with
  | [] => quiet (Ok tt)
  | sp :: sps' => run_params_out (fft (tp_polynomial_size (sp_tfhe sp))) md dryrun sp (co i) (cl0 i) ~;; sets_out fft md dryrun co cl0 (S i) sps'
  end.
Definition main_out (fft : Z -> fftT) (md : mode) (f : params_file) (c : cli) (co : nat -> coins) (cl0 : nat -> clock) : printing unit :=
  print (header +++ NL) ~;; sets_out fft md (cli_dryrun c) co cl0 0 (select_params f c).
End PrintingAll.
