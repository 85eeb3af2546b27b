(** * Model of src/params.rs, src/cli.rs and the parameter selection of src/main.rs *)
From Verif Require Import MBase.

(** [TFHEParameters], src/params.rs:4-15.  [standard_deviation] (an f64, the log2 of the standard
    deviation) is only passed on; the model keeps it as an integer. *)
Record tfhe_params := {
  tp_standard_deviation : Z;
  tp_polynomial_size : Z;
  tp_base_log : Z;
  tp_level_count : Z;
  tp_ks_base_log : Z;
  tp_ks_level_count : Z;
  tp_negs_base_log : Z;
  tp_negs_level_count : Z;
  tp_plaintext_modulus : Z;
  tp_secure_seed : bool }.

(** [TFHEParameters::default], src/params.rs:17-32. *)
Definition default_tfhe : tfhe_params :=
  {| tp_standard_deviation := -55; tp_polynomial_size := 2048; tp_base_log := 5; tp_level_count := 9;
     tp_ks_base_log := 5; tp_ks_level_count := 11; tp_negs_base_log := 5; tp_negs_level_count := 11;
     tp_plaintext_modulus := 2 ^ 8; tp_secure_seed := true |}.

(** [ORAMParameters], src/params.rs:35-50. *)
Inductive oram_params : Type :=
| SingleQuery (item_count iterations : Z)
| MultiQuery (item_count query_count iterations : Z)
| Batched (rows cols iterations : Z).

(** [ORAMParameters::default], src/params.rs:52-60. *)
Definition default_oram : oram_params := Batched 384 16 1.

(** [InputParamsList], src/params.rs:64-66, and its default, src/params.rs:68-77. *)
Definition input_list := list (list oram_params * list tfhe_params).
Definition default_input : input_list := [([default_oram], [default_tfhe])].

(** [ServerParams], src/params.rs:79-82. *)
Record server_params := { sp_oram : oram_params; sp_tfhe : tfhe_params }.

(** The three nested loops of [from_input_params_list], src/params.rs:94-107, pushing onto [out]. *)
Definition push_tfhe (o : oram_params) (ts : list tfhe_params) (out : list server_params) :=
  fold_left (fun out t => out ++ [{| sp_oram := o; sp_tfhe := t |}]) ts out.
Definition push_oram (os : list oram_params) (ts : list tfhe_params) (out : list server_params) :=
  fold_left (fun out o => push_tfhe o ts out) os out.
Definition from_input_params_list (input : input_list) : list server_params :=
  fold_left (fun out x => push_oram (fst x) (snd x) out) input [].

(** [Cli], src/cli.rs:7-85. *)
Record cli := {
  cli_mode : Z; cli_item_count : Z; cli_query_count : Z; cli_rows : Z; cli_cols : Z;
  cli_tfhe : tfhe_params;    (* standard_deviation .. secure_seed: ten options, one per field *)
  cli_dryrun : bool }.

(** The values [Cli::parse] gives to options that are not passed, src/cli.rs:12-84. *)
Definition default_cli : cli :=
  {| cli_mode := 2; cli_item_count := 4096; cli_query_count := 1; cli_rows := 96; cli_cols := 64;
     cli_tfhe := default_tfhe; cli_dryrun := false |}.

(** Outcome of [File::open(&cli.params)] and, if it opened, of [serde_json::from_reader]. *)
Inductive params_file := NotOpened | Opened (parsed : option input_list).

(** The match on [File::open], src/main.rs:194-228. *)
Definition select_params (f : params_file) (c : cli) : list server_params :=
  match f with
  | Opened parsed => from_input_params_list (match parsed with Some l => l | None => default_input end)
  | NotOpened =>
      [{| sp_oram :=
            if cli_mode c =? 0 then SingleQuery (cli_item_count c) 1
            else if cli_mode c =? 1 then MultiQuery (cli_item_count c) (cli_query_count c) 1
            else Batched (cli_rows c) (cli_cols c) 1;
          sp_tfhe := cli_tfhe c |}]
  end.
