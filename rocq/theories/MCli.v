(** * Model of the command line: [Cli::parse()], src/main.rs:187, of the options of src/cli.rs:5-85, and of the program
    around [main].
    The behaviour of clap 4.4 is modelled from its documentation (the crate is not in the sandbox): long options with
    a separate or an attached value; [bool] options are flags without a value ([ArgAction::SetTrue]); an option given
    twice, an unknown option, a missing or unreadable value and any positional argument end the program with status 2
    and a message on stderr; --help, -h, --version and -V show a text and end it with status 0.
    [f64]: the conversion of texts to floats; [negative s]: "-" followed by [s] looks like a negative number. *)
From Coq Require Import String Ascii.
From Verif Require Import MBase MUtils MCsv MPoly MRlwe MHash MParams MJson MSerde MOram MMain MOut.
Local Open Scope string_scope.
Local Open Scope Z_scope.

Inductive kind := KText | KNumber | KFloat | KFlag.
(** The options of src/cli.rs:8-84; clap writes field names with hyphens. *)
Definition options : list (string * kind) :=
  [("params", KText); ("mode", KNumber); ("item-count", KNumber); ("query-count", KNumber); ("rows", KNumber); ("cols", KNumber);
   ("standard-deviation", KFloat); ("polynomial-size", KNumber); ("base-log", KNumber); ("level-count", KNumber); ("key-switch-base-log", KNumber);
   ("key-switch-level-count", KNumber); ("negs-base-log", KNumber); ("negs-level-count", KNumber); ("plaintext-modulus", KNumber);
   ("secure-seed", KFlag); ("verbose", KFlag); ("dryrun", KFlag)].
Fixpoint lookup {A} (name : string) (l : list (string * A)) : option A :=
  match l with [] => None | (n, a) :: l' => if String.eqb n name then Some a else lookup name l' end.

(** [s] up to the first "=" and what follows it. *)
Fixpoint cut_eq (s : string) : string * option string :=
  match s with
  | EmptyString => (EmptyString, None)
  | String c s' => if Ascii.eqb c "=" then (EmptyString, Some s') else let '(a, b) := cut_eq s' in (String c a, b)
  end.

(** How an argument looks: "--", "--..", "-c..", anything else ("-" included). *)
Inductive shape := Escape | Long (s : string) | Short (c : ascii) (s : string) | Plain.
Definition shape_of (a : string) : shape :=
  match a with
  | EmptyString => Plain
  | String c1 s1 =>
      if Ascii.eqb c1 "-" then
        match s1 with
        | EmptyString => Plain
        | String c2 s2 => if Ascii.eqb c2 "-" then match s2 with EmptyString => Escape | _ => Long s2 end else Short c2 s2
        end
      else Plain
  end.

Section Clap.
Context (f64 : string -> option Z) (negative : string -> bool).
(** A value the parser of the option accepts. *)
Definition accepts (k : kind) (v : string) : bool :=
  match k with KText => true | KNumber => match parse_usize v with Some _ => true | None => false end
             | KFloat => match f64 v with Some _ => true | None => false end | KFlag => false end.
(** An argument that can be the separate value of an option: it does not look like an option itself. *)
Definition separate (k : kind) (v : string) : bool :=
  match shape_of v with
  | Plain => true
  | Short c s => match k with KFloat => negative (String c s) | _ => false end
  | _ => false
  end.
Inductive parsed := Given (seen : list (string * string)) | Shown | Rejected.
Definition record (seen : list (string * string)) (name v : string) (go : list (string * string) -> parsed) : parsed :=
  match lookup name seen with Some _ => Rejected | None => go ((name, v) :: seen) end.
Fixpoint scan (seen : list (string * string)) (args : list string) : parsed :=
  match args with
  | [] => Given seen
  | a :: rest =>
      match shape_of a with
      | Escape => match rest with [] => Given seen | _ => Rejected end
      | Long s =>
          let '(name, attached) := cut_eq s in
          match lookup name options with
          | None =>
              if String.eqb name "help" || String.eqb name "version" then match attached with None => Shown | Some _ => Rejected end else Rejected
          | Some KFlag => match attached with None => record seen name "" (fun seen' => scan seen' rest) | Some _ => Rejected end
          | Some k =>
              match attached with
              | Some v => if accepts k v then record seen name v (fun seen' => scan seen' rest) else Rejected
              | None =>
                  match rest with
                  | [] => Rejected
                  | v :: rest' => if separate k v && accepts k v then record seen name v (fun seen' => scan seen' rest') else Rejected
                  end
              end
          end
      | Short c _ => if Ascii.eqb c "h" || Ascii.eqb c "V" then Shown else Rejected
      | Plain => Rejected
      end
  end.

(** The values of the options: given, or the defaults of src/cli.rs. *)
Definition text_of (seen : list (string * string)) (name d : string) : string := match lookup name seen with Some v => v | None => d end.
Definition number_of (seen : list (string * string)) (name : string) (d : Z) : Z :=
  match lookup name seen with Some v => match parse_usize v with Some z => z | None => d end | None => d end.
Definition float_of (seen : list (string * string)) (name : string) (d : Z) : Z :=
  match lookup name seen with Some v => match f64 v with Some z => z | None => d end | None => d end.
(** [ArgAction::SetTrue]: true if the flag is given, else the default. *)
Definition flag_of (seen : list (string * string)) (name : string) (d : bool) : bool := match lookup name seen with Some _ => true | None => d end.
Definition cli_of (seen : list (string * string)) : cli :=
  {| cli_mode := number_of seen "mode" 2; cli_item_count := number_of seen "item-count" 4096; cli_query_count := number_of seen "query-count" 1;
     cli_rows := number_of seen "rows" 96; cli_cols := number_of seen "cols" 64;
     cli_tfhe :=
       {| tp_standard_deviation := float_of seen "standard-deviation" (tp_standard_deviation default_tfhe);
          tp_polynomial_size := number_of seen "polynomial-size" (tp_polynomial_size default_tfhe);
          tp_base_log := number_of seen "base-log" (tp_base_log default_tfhe); tp_level_count := number_of seen "level-count" (tp_level_count default_tfhe);
          tp_ks_base_log := number_of seen "key-switch-base-log" (tp_ks_base_log default_tfhe);
          tp_ks_level_count := number_of seen "key-switch-level-count" (tp_ks_level_count default_tfhe);
          tp_negs_base_log := number_of seen "negs-base-log" (tp_negs_base_log default_tfhe);
          tp_negs_level_count := number_of seen "negs-level-count" (tp_negs_level_count default_tfhe);
          tp_plaintext_modulus := number_of seen "plaintext-modulus" (tp_plaintext_modulus default_tfhe);
          tp_secure_seed := flag_of seen "secure-seed" (tp_secure_seed default_tfhe) |};
     cli_dryrun := flag_of seen "dryrun" false |}.

(** What [File::open] and reading give for a path: nothing, a file that cannot be read (a directory, say), a text. *)
Inductive file := Absent | Unreadable | Readable (text : string).
Section Program.
Context (dev : string -> option Z) (files : string -> file) (about : string).
Definition params_at (path : string) : params_file :=
  match files path with Absent => NotOpened | Unreadable => Opened None | Readable s => Opened (read_params dev s) end.
(** The whole program: what it prints on stdout and its exit status ([about]: the text --help and the like show). *)
Definition program (show_dev : Z -> string) (show_noise : nat -> list Z -> string) (fft : Z -> fftT) (md : mode) (args : list string)
    (co : nat -> coins) (cl0 : nat -> clock) : string * Z :=
  match scan [] args with
  | Rejected => ("", 2)
  | Shown => (about, 0)
  | Given seen =>
      let out := main_out show_dev show_noise fft md (params_at (text_of seen "params" "")) (cli_of seen) co cl0 in
      (fst out, match snd out with Ok _ => 0 | Panic _ => 101 end)
  end.
End Program.
End Clap.
