(** * Specification: command lines. *)
From Coq Require Import String Ascii.
From Verif Require Import MBase MParams PCsv.
Local Open Scope string_scope.
Local Open Scope Z_scope.

(** What a user asks for: "--name value" or "--name". *)
Inductive setting := Opt (name value : string) | Flag (name : string).
Definition name_of (st : setting) : string := match st with Opt n _ | Flag n => n end.
Definition numbers : list string :=
  ["mode"; "item-count"; "query-count"; "rows"; "cols"; "polynomial-size"; "base-log"; "level-count"; "key-switch-base-log"; "key-switch-level-count";
   "negs-base-log"; "negs-level-count"; "plaintext-modulus"].
Definition flags : list string := ["secure-seed"; "verbose"; "dryrun"].
(** The settings that make sense: a path, a machine word in decimal, a float, a flag. *)
Definition sensible (f64 : string -> option Z) (st : setting) : Prop :=
  match st with
  | Opt n v => n = "params" \/ (In n numbers /\ exists z, decimal v z /\ z < 2 ^ 64) \/ (n = "standard-deviation" /\ exists z, f64 v = Some z)
  | Flag n => In n flags
  end.
(** How a setting is written: the value attached with "=", or as an argument of its own if it does not begin with a
    dash (a single dash is a value; a negative number is one for the standard deviation). *)
Definition own_argument (negative : string -> bool) (n v : string) : Prop :=
  v = "-" \/ (forall s, v <> append "-" s) \/ (n = "standard-deviation" /\ exists c s, v = append "-" (String c s) /\ c <> "-"%char /\ negative (String c s) = true).
Inductive written (negative : string -> bool) : setting -> list string -> Prop :=
| W_attached n v : written negative (Opt n v) [append "--" (append n (append "=" v))]
| W_separate n v : own_argument negative n v -> written negative (Opt n v) [append "--" n; v]
| W_flag n : written negative (Flag n) [append "--" n].
Inductive spells (negative : string -> bool) : list setting -> list string -> Prop :=
| S_nil : spells negative [] []
| S_cons st ss w args : written negative st w -> spells negative ss args -> spells negative (st :: ss) (w ++ args).
(** Sensible settings, none twice. *)
Definition wellformed f64 negative (ss : list setting) (args : list string) : Prop :=
  spells negative ss args /\ Forall (sensible f64) ss /\ NoDup (map name_of ss).
(** A command line may end in a double dash. *)
Definition command_line f64 negative (ss : list setting) (args : list string) : Prop :=
  wellformed f64 negative ss args \/ exists args', args = (args' ++ ["--"])%list /\ wellformed f64 negative ss args'.
Definition asks_help (a : string) : Prop :=
  a = "--help" \/ a = "--version" \/ exists s, a = append "-h" s \/ a = append "-V" s.

(** The value of an option: the one given, or [d]. *)
Definition is_number (ss : list setting) (n : string) (d z : Z) : Prop :=
  (exists v, In (Opt n v) ss /\ decimal v z) \/ ((forall v, ~ In (Opt n v) ss) /\ z = d).
Definition is_float (f64 : string -> option Z) (ss : list setting) (n : string) (d z : Z) : Prop :=
  (exists v, In (Opt n v) ss /\ f64 v = Some z) \/ ((forall v, ~ In (Opt n v) ss) /\ z = d).
Definition is_text (ss : list setting) (n d s : string) : Prop := In (Opt n s) ss \/ ((forall v, ~ In (Opt n v) ss) /\ s = d).
Definition is_flag (ss : list setting) (n : string) (b : bool) : Prop := b = true <-> In (Flag n) ss.

(** The options [c] and the path the settings describe. *)
Definition describes (f64 : string -> option Z) (ss : list setting) (c : cli) (path : string) : Prop :=
  let t := cli_tfhe c in
  is_text ss "params" "" path /\
  is_number ss "mode" 2 (cli_mode c) /\ is_number ss "item-count" 4096 (cli_item_count c) /\ is_number ss "query-count" 1 (cli_query_count c) /\
  is_number ss "rows" 96 (cli_rows c) /\ is_number ss "cols" 64 (cli_cols c) /\
  is_float f64 ss "standard-deviation" (-55) (tp_standard_deviation t) /\
  is_number ss "polynomial-size" 2048 (tp_polynomial_size t) /\ is_number ss "base-log" 5 (tp_base_log t) /\ is_number ss "level-count" 9 (tp_level_count t) /\
  is_number ss "key-switch-base-log" 5 (tp_ks_base_log t) /\ is_number ss "key-switch-level-count" 11 (tp_ks_level_count t) /\
  is_number ss "negs-base-log" 5 (tp_negs_base_log t) /\ is_number ss "negs-level-count" 11 (tp_negs_level_count t) /\
  is_number ss "plaintext-modulus" 256 (tp_plaintext_modulus t) /\ is_flag ss "dryrun" (cli_dryrun c) /\
  (* the flag can only be set, and it is set by default *) tp_secure_seed t = true.
